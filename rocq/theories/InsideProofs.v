(** What an expression yields inside a closed window depends only on the tokens of the window: not on the rest of the
    text, nor on contexts, registers and the arguments it does not use. *)
From Coq Require Import List Arith Bool Lia.
From Verif Require Import Base BaseFacts LexModel GrammarModel ParserModel ForestSpec SemSpec PegSpec PegProofs WellFormed CheckProofs.
Import ListNotations.

(** No error nodes. *)
Fixpoint calm (t : ptree) : bool :=
  match t with
  | PNode ty pre body => negb (ty =? ERROR) && forallb calm pre && forallb calm body
  | PTok _ _ => true
  | PCached _ body => forallb calm body
  end.
Notation calms := (forallb calm).

Lemma calms_app : forall F G, calms (F ++ G) = true -> calms F = true /\ calms G = true.
Proof. intros F G H. rewrite forallb_app in H. apply andb_prop. exact H. Qed.

(** ** Rules that use nothing else *)
Section Table.
  (** [c e]: rule [e] is one of them; [z e]: outside of predicates it only takes tokens for which [okt] holds; [fr e]: the
      parameters it uses. *)
  Variable g : grammar.
  Variables (c z : nat -> bool) (fr : nat -> list nat) (okt : nat -> bool).

  Definition within (e b : nat) : bool := c b && forallb (fun i => memb i (fr e)) (fr b) && implb (z e) (z b).
  (** In predicates only. *)
  Definition within_pred (e b : nat) : bool := c b && forallb (fun i => memb i (fr e)) (fr b).

  Definition arg_ok (e : nat) (x : nat * nat) : bool :=
    match nth_error (g_rules g) (snd x) with
    | Some (EVar j) => memb j (fr e)
    | Some _ => c (snd x) && z (snd x) && match fr (snd x) with [] => true | _ => false end
    | None => false
    end.

  Definition inside_rule (e : nat) (x : expr) : bool :=
    match x with
    | EPub _ b false | EOpt b | ERep b => within e b
    | EOr l | EAnd l _ => forallb (within e) l
    | EToken ty => implb (z e) (match nth_error (g_types g) ty with Some t => okt t | None => false end)
    | ENot b => within_pred e b
    | EEof => true
    | EAny | EContextual _ _ => negb (z e)
    | ELayer l b => within_pred e l && within e b
    | EPratt t => forallb (within e) (pt_atoms t) && forallb (fun x => within e (px_op x)) (pt_prefixes t) && forallb (fun x => within e (ix_op x)) (pt_infixes t)
    | ECall b l => c b && implb (z e) (z b) && forallb (fun i => memb i (map fst l) || memb i (fr e)) (fr b) && forallb (arg_ok e) l
    | EVar i => memb i (fr e)
    | _ => false
    end.

  Fixpoint table_from (e : nat) (l : list expr) : bool :=
    match l with [] => true | x :: r => implb (c e) (inside_rule e x) && table_from (S e) r end.

  Definition inside_table : Prop := forall e x, c e = true -> nth_error (g_rules g) e = Some x -> inside_rule e x = true.

  Lemma table_ok : table_from 0 (g_rules g) = true -> inside_table.
  Proof.
    assert (X : forall l k e x, table_from k l = true -> c (k + e) = true -> nth_error l e = Some x -> inside_rule (k + e) x = true).
    { induction l as [|y l IH]; intros k [|e] x T C N; cbn in N; try discriminate; cbn [table_from] in T; apply andb_prop in T; destruct T as [T1 T2].
      - injection N as ->. rewrite Nat.add_0_r in *. rewrite C in T1. exact T1.
      - rewrite Nat.add_succ_r in *. exact (IH (S k) e x T2 C N). }
    intros T e x C N. exact (X _ 0 e x T C N).
  Qed.
End Table.

Section Inside.
  Variable g : grammar.
  Variables (c z : nat -> bool) (fr : nat -> list nat) (okt : nat -> bool).
  Hypothesis TABLE : inside_table g c z fr okt.

  Variables (D D' : env) (a a' n : nat).
  Hypothesis GD : e_g D = g.
  Hypothesis GD' : e_g D' = g.
  Hypothesis SAME : forall k, k < n -> exists o o' i i' t, nth_error (e_idx D) (a + k) = Some (o, i) /\ nth_error (e_toks D) i = Some t
    /\ nth_error (e_idx D') (a' + k) = Some (o', i') /\ nth_error (e_toks D') i' = Some t.

  Definition inside (p : pos) : Prop := a <= p_cur p /\ p_cur p <= p_end p /\ p_end p <= a + n.
  Definition sh (p : pos) : pos := mkPos (p_cur p - a + a') (p_end p - a + a').
  Definition shr (r : option (pos * list ptree)) : option (pos * list ptree) := match r with None => None | Some (q, F) => Some (sh q, F) end.

  Hypothesis CTX : forall e ty txt p r, c e = true -> nth_error (g_rules g) e = Some (EContextual ty txt) -> inside p -> by_text D p txt ty = Ok r ->
    by_text D' (sh p) txt ty = Ok (shr r) /\ match r with Some (q, F) => inside q /\ p_end q = p_end p /\ p_cur p <= p_cur q | None => True end.

  (** The tokens from [i] up to [j] are fit. *)
  Definition fit_toks (i j : nat) : Prop := forall k, i <= k < j -> exists o r t, nth_error (e_idx D) k = Some (o, r) /\ nth_error (e_toks D) r = Some t /\ okt (tk_ty t) = true.

  Definition fits (zz : bool) (p : pos) (run run' : regs -> outcome) : Prop :=
    forall h r h1, run h = Ok (r, h1) -> h_repl h1 = h_repl h
      /\ match r with
         | Some (q, F) => inside q /\ p_end q = p_end p /\ p_cur p <= p_cur q /\ (zz = true -> calms F = true -> fit_toks (p_cur p) (p_cur q))
         | None => True
         end
      /\ forall h', exists pv, run' h' = Ok (shr r, mkRg pv (h_repl h')).

  Definition agree (l : list nat) (A A' : list (option nat)) : Prop :=
    length A' = length A /\ forall i, In i l -> exists e, nth_error A i = Some (Some e) /\ nth_error A' i = Some (Some e) /\ c e = true /\ z e = true /\ fr e = [].

  Definition alike (e : nat) (rd rd' : reader) : Prop := r_pred rd' = r_pred rd /\ agree (fr e) (r_args rd) (r_args rd').

  Lemma agree_sub : forall l l' A A', (forall i, In i l' -> In i l) -> agree l A A' -> agree l' A A'.
  Proof. intros l l' A A' S (L & H). split; [exact L|]. intros i I. exact (H i (S i I)). Qed.

  Lemma within_ok : forall e b rd rd', within c z fr e b = true -> alike e rd rd' -> c b = true /\ alike b rd rd' /\ (z e = true -> z b = true).
  Proof.
    intros e b rd rd' W (P & AG). unfold within in W. apply andb_prop in W. destruct W as [W Z]. apply andb_prop in W. destruct W as [C S]. split; [exact C|]. split.
    - split; [exact P|]. eapply agree_sub; [|exact AG]. intros i I. rewrite forallb_forall in S. apply memb_in. exact (S i I).
    - intros ZE. rewrite ZE in Z. exact Z.
  Qed.

  Lemma within_pred_ok : forall e b rd rd', within_pred c fr e b = true -> alike e rd rd' -> c b = true /\ alike b (as_pred rd) (as_pred rd').
  Proof.
    intros e b rd rd' W (P & AG). unfold within_pred in W. apply andb_prop in W. destruct W as [C S]. split; [exact C|].
    split; [reflexivity|]. eapply agree_sub; [|exact AG]. intros i I. rewrite forallb_forall in S. apply memb_in. exact (S i I).
  Qed.

  Lemma type_same : forall ty, type_of D' ty = type_of D ty.
  Proof. intros ty. unfold type_of. rewrite GD, GD'. reflexivity. Qed.

  Lemma sh_empty : forall p, inside p -> p_empty (sh p) = p_empty p.
  Proof.
    intros p (A1 & A2 & A3). unfold p_empty, sh. cbn [p_cur p_end]. destruct (Nat.eqb_spec (p_cur p) (p_end p)) as [E|E].
    - rewrite E. apply Nat.eqb_refl.
    - apply Nat.eqb_neq. lia.
  Qed.

  Lemma sh_next : forall p, inside p -> p_empty p = false -> inside (p_next p) /\ sh (p_next p) = p_next (sh p).
  Proof.
    intros [x y] (A1 & A2 & A3) NE. unfold p_empty, inside, sh, p_next in *. cbn [p_cur p_end] in *. apply Nat.eqb_neq in NE. split; [lia|]. f_equal. lia.
  Qed.

  Lemma one_same : forall p r, inside p -> one D p = Ok r -> one D' (sh p) = Ok (match r with None => None | Some (t, q) => Some (t, sh q) end)
    /\ match r with
       | Some (t, q) => inside q /\ p_end q = p_end p /\ p_cur q = S (p_cur p) /\ (okt t = true -> fit_toks (p_cur p) (p_cur q))
       | None => p_empty p = true
       end.
  Proof.
    intros p r IN H. unfold one in *. rewrite (sh_empty p IN). destruct (p_empty p) eqn:E; [injection H as <-; split; reflexivity|].
    destruct IN as (A1 & A2 & A3). pose proof E as NE. unfold p_empty in NE. apply Nat.eqb_neq in NE.
    destruct (SAME (p_cur p - a) ltac:(lia)) as (o & o' & i & i' & t & I1 & T1 & I2 & T2). replace (a + (p_cur p - a)) with (p_cur p) in I1 by lia.
    unfold token_at in *. unfold sh at 1. cbn [p_cur]. replace (p_cur p - a + a') with (a' + (p_cur p - a)) by lia. unfold index in *. rewrite I1 in H. rewrite I2. cbn [unwrap bind] in *.
    rewrite T1 in H. rewrite T2. cbn [unwrap bind] in *. injection H as <-. destruct (sh_next p (conj A1 (conj A2 A3)) E) as [NI NS]. rewrite NS.
    split; [reflexivity|]. split; [exact NI|]. split; [reflexivity|]. split; [reflexivity|]. intros OK k L. cbn [p_next p_cur] in L. replace k with (p_cur p) by lia. exists o, i, t. auto.
  Qed.

  Lemma all_same : forall f p T, inside p -> all_toks D f p = Ok T -> forall f', p_end p - p_cur p < f' -> all_toks D' f' (sh p) = Ok T.
  Proof.
    induction f as [|f IH]; intros p T IN H f' L; [discriminate H|]. destruct f' as [|f']; [lia|]. cbn [all_toks] in *. destruct (one D p) as [r| |] eqn:O; try discriminate H.
    destruct (one_same p r IN O) as (-> & R). cbn [bind] in *. destruct r as [[t q]|]; [|exact H]. destruct R as (IQ & EQ & CQ & _).
    destruct (all_toks D f q) as [r| |] eqn:AQ; try discriminate H. rewrite (IH q r IQ AQ f') by (unfold inside in IQ; lia). exact H.
  Qed.

  Lemma fit_app : forall i j k, fit_toks i j -> fit_toks j k -> fit_toks i k.
  Proof. intros i j k A B x L. destruct (Nat.lt_ge_cases x j); [apply A|apply B]; lia. Qed.

  Lemma bind_same : forall e l A B A' Dm, bind_args D l A = Ok B -> forallb (arg_ok g c z fr e) l = true -> (forall i, In i (fr e) -> In i Dm) -> agree Dm A A' ->
    exists B', bind_args D' l A' = Ok B' /\ agree (map fst l ++ Dm) B B'.
  Proof.
    intros e l. induction l as [|[i x] l IH]; intros A B A' Dm H OK SUB AG.
    { cbn in H. injection H as <-. exists A'. split; [reflexivity|exact AG]. }
    cbn [forallb] in OK. apply andb_prop in OK. destruct OK as [O1 O2]. unfold arg_ok in O1. cbn [snd] in O1.
    cbn [bind_args] in H |- *. unfold index in *. rewrite GD in H. rewrite GD'.
    destruct (nth_error (g_rules g) x) as [ex|] eqn:RX; [|discriminate O1]. cbn [unwrap bind] in *.
    assert (V : exists v, (match ex with EVar j => o <- unwrap (nth_error A j) ;; unwrap o | _ => Ok x end) = Ok v
      /\ (match ex with EVar j => o <- unwrap (nth_error A' j) ;; unwrap o | _ => Ok x end) = Ok v /\ c v = true /\ z v = true /\ fr v = []).
    { destruct ex; try (apply andb_prop in O1; destruct O1 as [O1 O3]; apply andb_prop in O1; destruct O1 as [O1 O4]; exists x; repeat (split; [reflexivity || assumption|]); destruct (fr x); [reflexivity|discriminate O3]).
      destruct (proj2 AG i0 (SUB i0 (memb_in _ _ O1))) as (v & N1 & N2 & R). exists v. rewrite N1, N2. cbn. auto. }
    destruct V as (v & V1 & V2 & VC & VZ & VF). rewrite V1 in H. rewrite V2. cbn [bind] in *.
    destruct (nth_error A i) as [y|] eqn:NI; [|discriminate H]. cbn [unwrap bind] in H. assert (LI : i < length A) by (apply nth_error_Some; congruence).
    destruct AG as (LE & AG). destruct (nth_error A' i) as [y'|] eqn:NI'; [|apply nth_error_None in NI'; lia]. cbn [unwrap bind].
    destruct (IH (set_nth i (Some v) A) B (set_nth i (Some v) A') (i :: Dm) H O2) as (B' & HB & AB).
    - intros j J. right. exact (SUB j J).
    - split; [rewrite !set_nth_length; exact LE|]. intros j J. destruct (Nat.eq_dec i j) as [<-|NE].
      + exists v. rewrite !nth_error_set_nth_eq by lia. auto.
      + rewrite !nth_error_set_nth_neq by exact NE. destruct J as [J|J]; [congruence|exact (AG j J)].
    - exists B'. split; [exact HB|]. eapply agree_sub; [|exact AB]. intros j J. cbn [map fst app] in J. apply in_or_app. destruct J as [<-|J]; [right; left; reflexivity|].
      apply in_app_or in J. destruct J as [J|J]; [left; exact J|right; right; exact J].
  Qed.

  Section Rec.
    Variables (rec rec' : reader -> nat -> pos -> regs -> outcome).
    Variable fuel : nat.
    Hypothesis REC : forall rd rd' e p, c e = true -> alike e rd rd' -> inside p -> fits (z e && negb (r_pred rd)) p (rec rd e p) (rec' rd' e (sh p)).

    (** The same with what a parent knows. *)
    Lemma rec_within : forall e b rd rd' p, within c z fr e b = true -> alike e rd rd' -> inside p -> fits (z e && negb (r_pred rd)) p (rec rd b p) (rec' rd' b (sh p)).
    Proof.
      intros e b rd rd' p W AL IN. destruct (within_ok _ _ _ _ W AL) as (C & AB & Z). intros h r h1 H. destruct (REC rd rd' b p C AB IN h r h1 H) as (R1 & R2 & R3).
      split; [exact R1|]. split; [|exact R3]. destruct r as [[q F]|]; [|exact I]. destruct R2 as (Q1 & Q2 & Q3 & Q4). repeat (split; [assumption|]).
      intros ZZ. apply Q4. apply andb_prop in ZZ. destruct ZZ as [ZE ->]. rewrite (Z ZE). reflexivity.
    Qed.

    Lemma or_fits : forall e l rd rd' p, forallb (within c z fr e) l = true -> alike e rd rd' -> inside p -> fits (z e && negb (r_pred rd)) p (sem_or rec rd l p) (sem_or rec' rd' l (sh p)).
    Proof.
      intros e l rd rd' p W AL IN. induction l as [|b l IH]; intros h r h1 H.
      - cbn in H. injection H as <- <-. split; [reflexivity|]. split; [exact I|]. intros [pv rp]. exists pv. reflexivity.
      - cbn [forallb] in W. apply andb_prop in W. destruct W as [W1 W2]. cbn [sem_or] in H |- *.
        destruct (rec rd b p h) as [[r0 h0]| |] eqn:R; try discriminate H. cbn [bind] in H.
        destruct (rec_within e b rd rd' p W1 AL IN h r0 h0 R) as (A1 & A2 & A3). destruct r0 as [[q F]|].
        + injection H as <- <-. split; [exact A1|]. split; [exact A2|]. intros h'. destruct (A3 h') as (pv & ->). eexists; reflexivity.
        + destruct (IH W2 h0 r h1 H) as (B1 & B2 & B3). split; [congruence|]. split; [exact B2|].
          intros h'. destruct (A3 h') as (pv & ->). cbn [bind shr]. destruct (B3 (mkRg pv (h_repl h'))) as (pv' & ->). exists pv'. reflexivity.
    Qed.

    Lemma parts_fit : forall e l rd rd', forallb (within c z fr e) l = true -> alike e rd rd' -> forall p, inside p -> forall h m q F h1,
      sem_parts rec rd l p h = Ok (m, q, F, h1) -> h_repl h1 = h_repl h /\ inside q /\ p_end q = p_end p /\ p_cur p <= p_cur q
        /\ (z e && negb (r_pred rd) = true -> calms F = true -> fit_toks (p_cur p) (p_cur q))
        /\ forall h', exists pv, sem_parts rec' rd' l (sh p) h' = Ok (m, sh q, F, mkRg pv (h_repl h')).
    Proof.
      intros e l rd rd' W AL. induction l as [|b l IH]; intros p IN h m q F h1 H.
      - cbn in H. injection H as <- <- <- <-. repeat (split; [first [reflexivity|exact IN|lia]|]). split; [intros _ _ k L; lia|]. intros [pv rp]. exists pv. reflexivity.
      - cbn [forallb] in W. apply andb_prop in W. destruct W as [W1 W2]. cbn [sem_parts] in H |- *.
        destruct (rec rd b p h) as [[r0 h0]| |] eqn:R; try discriminate H. cbn [bind] in H.
        destruct (rec_within e b rd rd' p W1 AL IN h r0 h0 R) as (A1 & A2 & A3). destruct r0 as [[p1 F1]|].
        + destruct A2 as (Q1 & Q2 & Q3 & Q4). destruct (sem_parts rec rd l p1 h0) as [[[[m2 q2] F2] h2]| |] eqn:P; try discriminate H. cbn [bind] in H. injection H as <- <- <- <-.
          destruct (IH W2 p1 Q1 h0 m2 q2 F2 h2 P) as (B1 & B2 & B3 & B4 & B5 & B6). split; [congruence|]. split; [exact B2|]. split; [congruence|]. split; [lia|]. split.
          * intros ZZ C. apply calms_app in C. destruct C as [C1 C2]. eapply fit_app; [exact (Q4 ZZ C1)|exact (B5 ZZ C2)].
          * intros h'. destruct (A3 h') as (pv & ->). cbn [bind shr]. destruct (B6 (mkRg pv (h_repl h'))) as (pv' & ->). eexists; reflexivity.
        + injection H as <- <- <- <-. repeat (split; [first [exact A1|reflexivity|exact IN|lia]|]). split; [intros _ _ k L; lia|]. intros h'. destruct (A3 h') as (pv & ->). eexists; reflexivity.
    Qed.

    Lemma rep_fits : forall e b rd rd', within c z fr e b = true -> alike e rd rd' -> forall m p, inside p -> fits (z e && negb (r_pred rd)) p (sem_rep rec m rd b p) (sem_rep rec' m rd' b (sh p)).
    Proof.
      intros e b rd rd' W AL. induction m as [|m IH]; intros p IN h r h1 H; [discriminate H|]. cbn [sem_rep] in H |- *.
      destruct (rec rd b p h) as [[r0 h0]| |] eqn:R; try discriminate H. cbn [bind] in H.
      destruct (rec_within e b rd rd' p W AL IN h r0 h0 R) as (A1 & A2 & A3). destruct r0 as [[p1 F1]|].
      - destruct A2 as (Q1 & Q2 & Q3 & Q4). destruct (sem_rep rec m rd b p1 h0) as [[r2 h2]| |] eqn:P; try discriminate H. cbn [bind] in H.
        destruct (IH p1 Q1 h0 r2 h2 P) as (B1 & B2 & B3). destruct r2 as [[q2 G]|].
        + injection H as <- <-. destruct B2 as (C1 & C2 & C3 & C4). split; [congruence|]. split.
          * split; [exact C1|]. split; [congruence|]. split; [lia|]. intros ZZ C. apply calms_app in C. destruct C as [X1 X2]. eapply fit_app; [exact (Q4 ZZ X1)|exact (C4 ZZ X2)].
          * intros h'. destruct (A3 h') as (pv & ->). cbn [bind shr]. destruct (B3 (mkRg pv (h_repl h'))) as (pv' & ->). eexists; reflexivity.
        + injection H as <- <-. split; [congruence|]. split; [exact I|]. intros h'. destruct (A3 h') as (pv & ->). cbn [bind shr]. destruct (B3 (mkRg pv (h_repl h'))) as (pv' & ->). eexists; reflexivity.
      - injection H as <- <-. split; [exact A1|]. split.
        + split; [exact IN|]. split; [reflexivity|]. split; [lia|]. intros _ _ k L. lia.
        + intros h'. destruct (A3 h') as (pv & ->). eexists; reflexivity.
    Qed.

    Section Pratt.
      Variables (e : nat) (rd rd' : reader).
      Hypothesis AL : alike e rd rd'.
      Variables (go go' : nat -> pos -> regs -> outcome).
      Hypothesis GO : forall m p, inside p -> fits (z e && negb (r_pred rd)) p (go m p) (go' m (sh p)).

      Lemma attach_same : forall fresh lhs, can_attach rd' fresh lhs = can_attach rd fresh lhs.
      Proof. intros fresh lhs. unfold can_attach. rewrite (proj1 AL). reflexivity. Qed.

      (** [i]: where the left operand starts. *)
      Lemma infixes_fit : forall i l fresh lhs p, forallb (fun x => within c z fr e (ix_op x)) l = true -> inside p -> i <= p_cur p ->
        (z e && negb (r_pred rd) = true -> calms lhs = true -> fit_toks i (p_cur p)) ->
        forall h r h1, sem_infixes D rec go rd l fresh lhs p h = Ok (r, h1) -> h_repl h1 = h_repl h
        /\ match r with Some (q, F) => inside q /\ p_end q = p_end p /\ p_cur p <= p_cur q /\ (z e && negb (r_pred rd) = true -> calms F = true -> fit_toks i (p_cur q)) | None => True end
        /\ forall h', exists pv, sem_infixes D' rec' go' rd' l fresh lhs (sh p) h' = Ok (shr r, mkRg pv (h_repl h')).
      Proof.
        intros i l fresh lhs p W IN LI FL. induction l as [|x l IH]; intros h r h1 H.
        - cbn in H. injection H as <- <-. split; [reflexivity|]. split; [exact I|]. intros [pv rp]. exists pv. reflexivity.
        - cbn [forallb] in W. apply andb_prop in W. destruct W as [W1 W2]. cbn [sem_infixes] in H |- *. rewrite type_same.
          destruct (type_of D (ix_ty x)) as [t| |]; try discriminate H. cbn [bind] in H |- *.
          destruct (rec rd (ix_op x) p h) as [[r0 h0]| |] eqn:R; try discriminate H. cbn [bind] in H.
          destruct (rec_within e (ix_op x) rd rd' p W1 AL IN h r0 h0 R) as (A1 & A2 & A3). destruct r0 as [[p1 F1]|].
          + destruct A2 as (Q1 & Q2 & Q3 & Q4). rewrite attach_same. destruct (can_attach rd fresh lhs); [|discriminate H]. cbn [guard] in H |- *. destruct (ix_rhs x).
            * destruct (go (S (ix_prio x)) p1 h0) as [[r2 h2]| |] eqn:P; try discriminate H. cbn [bind] in H.
              destruct (GO (S (ix_prio x)) p1 Q1 h0 r2 h2 P) as (B1 & B2 & B3). destruct r2 as [[q2 G]|]; cbn [bind] in H.
              -- injection H as <- <-. destruct B2 as (C1 & C2 & C3 & C4). split; [cbn; congruence|]. split.
                 ++ split; [exact C1|]. split; [congruence|]. split; [lia|]. intros ZZ C. cbn [calms calm forallb] in C. rewrite andb_true_r in C.
                    apply andb_prop in C. destruct C as [C X2]. apply andb_prop in C. destruct C as [_ X1]. apply calms_app in X2. destruct X2 as [X2 X3].
                    eapply fit_app; [exact (FL ZZ X1)|]. eapply fit_app; [exact (Q4 ZZ X2)|exact (C4 ZZ X3)].
                 ++ intros h'. destruct (A3 h') as (pv & ->). cbn [bind shr]. destruct (B3 (mkRg pv (h_repl h'))) as (pv' & ->). eexists; reflexivity.
              -- injection H as <- <-. split; [cbn; congruence|]. split.
                 ++ split; [exact Q1|]. split; [congruence|]. split; [lia|]. intros ZZ C. exfalso. cbn [calms calm forallb] in C. rewrite andb_true_r in C.
                    apply andb_prop in C. destruct C as [_ X2]. apply calms_app in X2. destruct X2 as [_ X]. discriminate X.
                 ++ intros h'. destruct (A3 h') as (pv & ->). cbn [bind shr]. destruct (B3 (mkRg pv (h_repl h'))) as (pv' & ->). eexists; reflexivity.
            * cbn [bind] in H. injection H as <- <-. split; [cbn; congruence|]. split.
              -- split; [exact Q1|]. split; [congruence|]. split; [lia|]. intros ZZ C. cbn [calms calm forallb] in C. rewrite andb_true_r in C.
                 apply andb_prop in C. destruct C as [C X2]. apply andb_prop in C. destruct C as [_ X1]. apply calms_app in X2. destruct X2 as [X2 _].
                 eapply fit_app; [exact (FL ZZ X1)|exact (Q4 ZZ X2)].
              -- intros h'. destruct (A3 h') as (pv & ->). eexists; reflexivity.
          + destruct (IH W2 h0 r h1 H) as (B1 & B2 & B3). split; [congruence|]. split; [exact B2|].
            intros h'. destruct (A3 h') as (pv & ->). cbn [bind shr]. destruct (B3 (mkRg pv (h_repl h'))) as (pv' & ->). exists pv'. reflexivity.
      Qed.

      Lemma loop_fits : forall i l, forallb (fun x => within c z fr e (ix_op x)) l = true -> forall m fresh lhs p, inside p -> i <= p_cur p ->
        (z e && negb (r_pred rd) = true -> calms lhs = true -> fit_toks i (p_cur p)) ->
        forall h r h1, sem_loop D rec go m rd l fresh lhs p h = Ok (r, h1) -> h_repl h1 = h_repl h
        /\ match r with Some (q, F) => inside q /\ p_end q = p_end p /\ p_cur p <= p_cur q /\ (z e && negb (r_pred rd) = true -> calms F = true -> fit_toks i (p_cur q)) | None => True end
        /\ forall h', exists pv, sem_loop D' rec' go' m rd' l fresh lhs (sh p) h' = Ok (shr r, mkRg pv (h_repl h')).
      Proof.
        intros i l W. induction m as [|m IH]; intros fresh lhs p IN LI FL h r h1 H; [discriminate H|]. cbn [sem_loop] in H |- *.
        destruct (sem_infixes D rec go rd l fresh lhs p h) as [[r0 h0]| |] eqn:R; try discriminate H. cbn [bind] in H.
        destruct (infixes_fit i l fresh lhs p W IN LI FL h r0 h0 R) as (A1 & A2 & A3). destruct r0 as [[p1 F1]|].
        - destruct A2 as (Q1 & Q2 & Q3 & Q4). destruct (IH false F1 p1 Q1 ltac:(lia) Q4 h0 r h1 H) as (B1 & B2 & B3). split; [congruence|]. split.
          + destruct r as [[q F]|]; [|exact I]. destruct B2 as (C1 & C2 & C3 & C4). split; [exact C1|]. split; [congruence|]. split; [lia|]. exact C4.
          + intros h'. destruct (A3 h') as (pv & ->). cbn [bind shr]. destruct (B3 (mkRg pv (h_repl h'))) as (pv' & ->). exists pv'. reflexivity.
        - injection H as <- <-. split; [exact A1|]. split; [split; [exact IN|]; split; [reflexivity|]; split; [lia|exact FL]|].
          intros h'. destruct (A3 h') as (pv & ->). eexists; reflexivity.
      Qed.

      Lemma prefixes_fit : forall l p, forallb (fun x => within c z fr e (px_op x)) l = true -> inside p ->
        fits (z e && negb (r_pred rd)) p (sem_prefixes D rec go rd l p) (sem_prefixes D' rec' go' rd' l (sh p)).
      Proof.
        intros l p W IN. induction l as [|x l IH]; intros h r h1 H.
        - cbn in H. injection H as <- <-. split; [reflexivity|]. split; [exact I|]. intros [pv rp]. exists pv. reflexivity.
        - cbn [forallb] in W. apply andb_prop in W. destruct W as [W1 W2]. cbn [sem_prefixes] in H |- *. rewrite type_same.
          destruct (type_of D (px_ty x)) as [t| |]; try discriminate H. cbn [bind] in H |- *.
          destruct (rec rd (px_op x) p h) as [[r0 h0]| |] eqn:R; try discriminate H. cbn [bind] in H.
          destruct (rec_within e (px_op x) rd rd' p W1 AL IN h r0 h0 R) as (A1 & A2 & A3). destruct r0 as [[p1 F1]|].
          + destruct A2 as (Q1 & Q2 & Q3 & Q4). destruct (go (px_prio x) p1 h0) as [[r2 h2]| |] eqn:P; try discriminate H. cbn [bind] in H.
            destruct (GO (px_prio x) p1 Q1 h0 r2 h2 P) as (B1 & B2 & B3). destruct r2 as [[q2 G]|]; cbn [bind ok no] in H.
            * injection H as <- <-. destruct B2 as (C1 & C2 & C3 & C4). split; [cbn; congruence|]. split.
              -- split; [exact C1|]. split; [congruence|]. split; [lia|]. intros ZZ C. cbn [calms calm forallb] in C. rewrite andb_true_r in C.
                 apply andb_prop in C. destruct C as [_ X2]. apply calms_app in X2. destruct X2 as [X2 X3]. eapply fit_app; [exact (Q4 ZZ X2)|exact (C4 ZZ X3)].
              -- intros h'. destruct (A3 h') as (pv & ->). cbn [bind shr]. destruct (B3 (mkRg pv (h_repl h'))) as (pv' & ->). eexists; reflexivity.
            * destruct (IH W2 h2 r h1 H) as (D1 & D2 & D3). split; [congruence|]. split; [exact D2|].
              intros h'. destruct (A3 h') as (pv & ->). cbn [bind shr]. destruct (B3 (mkRg pv (h_repl h'))) as (pv' & ->). cbn [bind shr ok no h_repl].
              destruct (D3 (mkRg pv' (h_repl h'))) as (pw & ->). exists pw. reflexivity.
          + cbn [bind no] in H. destruct (IH W2 h0 r h1 H) as (B1 & B2 & B3). split; [congruence|]. split; [exact B2|].
            intros h'. destruct (A3 h') as (pv & ->). cbn [bind shr no]. destruct (B3 (mkRg pv (h_repl h'))) as (pv' & ->). exists pv'. reflexivity.
      Qed.
    End Pratt.

    Lemma go_fits : forall e rd rd' t, alike e rd rd' -> forallb (within c z fr e) (pt_atoms t) = true -> forallb (fun x => within c z fr e (px_op x)) (pt_prefixes t) = true ->
      forallb (fun x => within c z fr e (ix_op x)) (pt_infixes t) = true ->
      forall m k p, inside p -> fits (z e && negb (r_pred rd)) p (sem_go D rec fuel m rd t k p) (sem_go D' rec' fuel m rd' t k (sh p)).
    Proof.
      intros e rd rd' t AL WA WP WI. induction m as [|m IH]; intros k p IN h r h1 H; [discriminate H|]. cbn [sem_go] in H |- *.
      assert (WK : forallb (fun x => within c z fr e (ix_op x)) (infixes t k) = true).
      { rewrite forallb_forall in *. intros x J. apply WI. unfold infixes in J. apply filter_In in J. exact (proj1 J). }
      assert (OP : fits (z e && negb (r_pred rd)) p (sem_operand D rec (sem_go D rec fuel m rd t) rd t p) (sem_operand D' rec' (sem_go D' rec' fuel m rd' t) rd' t (sh p))).
      { clear h r h1 H. intros h r h1 H. unfold sem_operand in *. destruct (sem_or rec rd (pt_atoms t) p h) as [[r0 h0]| |] eqn:R; try discriminate H. cbn [bind] in H.
        destruct (or_fits e _ rd rd' p WA AL IN h r0 h0 R) as (A1 & A2 & A3). destruct r0 as [[p1 F1]|].
        - injection H as <- <-. split; [exact A1|]. split; [exact A2|]. intros h'. destruct (A3 h') as (pv & ->). eexists; reflexivity.
        - destruct (prefixes_fit e rd rd' AL (sem_go D rec fuel m rd t) (sem_go D' rec' fuel m rd' t) IH _ p WP IN h0 r h1 H) as (B1 & B2 & B3).
          split; [congruence|]. split; [exact B2|]. intros h'. destruct (A3 h') as (pv & ->). cbn [bind shr]. destruct (B3 (mkRg pv (h_repl h'))) as (pv' & ->). exists pv'. reflexivity. }
      destruct (sem_operand D rec (sem_go D rec fuel m rd t) rd t p h) as [[r0 h0]| |] eqn:R; try discriminate H. cbn [bind] in H.
      destruct (OP h r0 h0 R) as (A1 & A2 & A3). destruct r0 as [[p1 F1]|].
      - destruct A2 as (Q1 & Q2 & Q3 & Q4).
        destruct (loop_fits e rd rd' AL (sem_go D rec fuel m rd t) (sem_go D' rec' fuel m rd' t) IH (p_cur p) _ WK fuel true F1 p1 Q1 Q3 Q4 h0 r h1 H) as (B1 & B2 & B3).
        split; [congruence|]. split.
        + destruct r as [[q F]|]; [|exact I]. destruct B2 as (C1 & C2 & C3 & C4). split; [exact C1|]. split; [congruence|]. split; [lia|]. exact C4.
        + intros h'. destruct (A3 h') as (pv & ->). cbn [bind shr]. destruct (B3 (mkRg pv (h_repl h'))) as (pv' & ->). exists pv'. reflexivity.
      - injection H as <- <-. split; [exact A1|]. split; [exact I|]. intros h'. destruct (A3 h') as (pv & ->). eexists; reflexivity.
    Qed.

    Lemma step_fits : forall rd rd' e p, c e = true -> alike e rd rd' -> inside p ->
      fits (z e && negb (r_pred rd)) p (sem_step D rec fuel rd e p) (sem_step D' rec' fuel rd' e (sh p)).
    Proof.
      intros rd rd' e p CE AL IN h r h1 H. unfold sem_step in *. unfold index in *. rewrite GD in H. rewrite GD'.
      destruct (nth_error (g_rules g) e) as [x|] eqn:RX; [|discriminate H]. cbn [unwrap bind] in H |- *. pose proof (TABLE e x CE RX) as T.
      destruct x as [ty b [|]|ty b|l|l cm|ty|ty txt|b|f b|b|b| | |l b|t|k b|k b|k|b l|i|tys|pre b|b]; cbn [inside_rule] in T; try discriminate T.
      - (* pub *) unfold sem_pub in *. rewrite type_same. destruct (type_of D ty) as [t| |]; try discriminate H. cbn [bind] in H |- *.
        destruct (rec rd b p h) as [[r0 h0]| |] eqn:R; try discriminate H. cbn [bind] in H. destruct (rec_within e b rd rd' p T AL IN h r0 h0 R) as (A1 & A2 & A3).
        destruct r0 as [[q F]|]; cbn [bind ok no] in H.
        + injection H as <- <-. split; [exact A1|]. destruct A2 as (Q1 & Q2 & Q3 & Q4). split.
          * repeat (split; [assumption|]). intros ZZ C. apply (Q4 ZZ). cbn [calms calm forallb] in C. rewrite andb_true_r in C. apply andb_prop in C. exact (proj2 C).
          * intros h'. destruct (A3 h') as (pv & ->). eexists; reflexivity.
        + injection H as <- <-. split; [exact A1|]. split; [exact I|]. intros h'. destruct (A3 h') as (pv & ->). eexists; reflexivity.
      - exact (or_fits e l rd rd' p T AL IN h r h1 H).
      - (* sequence *) unfold sem_and in *. destruct (sem_parts rec rd l p h) as [[[[m q] F] h0]| |] eqn:P; try discriminate H. cbn [bind] in H.
        destruct (parts_fit e l rd rd' T AL p IN h m q F h0 P) as (B1 & B2 & B3 & B4 & B5 & B6).
        destruct (m <? match cm with Some k => k | None => length l end) eqn:M1.
        + injection H as <- <-. split; [exact B1|]. split; [exact I|]. intros h'. destruct (B6 h') as (pv & ->). cbn [bind]. rewrite M1. exists pv. reflexivity.
        + destruct (m <? length l) eqn:M2; injection H as <- <-; (split; [exact B1|]; split; [|intros h'; destruct (B6 h') as (pv & ->); cbn [bind]; rewrite M1, M2; exists pv; reflexivity]);
            repeat (split; [assumption|]); intros ZZ C; [|exact (B5 ZZ C)]. apply calms_app in C. destruct C as [_ C]. discriminate C.
      - (* token *) destruct (one D p) as [o| |] eqn:O; try discriminate H. cbn [bind] in H. destruct (one_same p o IN O) as (-> & R). cbn [bind]. destruct o as [[t q]|].
        + rewrite type_same. destruct R as (Q1 & Q2 & Q3 & Q4). unfold type_of, index in *. rewrite GD in *. destruct (nth_error (g_types g) ty) as [w|] eqn:TW; [|discriminate H].
          cbn [unwrap bind] in H |- *. destruct (Nat.eqb_spec w t) as [<-|NE].
          * injection H as <- <-. split; [reflexivity|]. split; [|intros [pv rp]; exists pv; reflexivity]. repeat (split; [first [assumption|lia]|]). intros ZZ _. apply Q4.
            apply andb_prop in ZZ. destruct ZZ as [ZE _]. rewrite ZE in T. exact T.
          * injection H as <- <-. split; [reflexivity|]. split; [exact I|]. intros [pv rp]. exists pv. reflexivity.
        + injection H as <- <-. split; [reflexivity|]. split; [exact I|]. intros [pv rp]. exists pv. reflexivity.
      - (* contextual token *) destruct (by_text D p txt ty) as [o| |] eqn:O; try discriminate H. cbn [bind] in H. destruct (CTX e ty txt p o CE RX IN O) as (-> & R). cbn [bind].
        destruct o as [[q F]|]; injection H as <- <-; (split; [reflexivity|]); (split; [|intros [pv rp]; exists pv; reflexivity]); [|exact I].
        destruct R as (Q1 & Q2 & Q3). repeat (split; [assumption|]). intros ZZ. apply negb_true_iff in T. rewrite T in ZZ. discriminate ZZ.
      - exact (rep_fits e b rd rd' T AL fuel p IN h r h1 H).
      - (* option *) destruct (rec rd b p h) as [[r0 h0]| |] eqn:R; try discriminate H. cbn [bind] in H. destruct (rec_within e b rd rd' p T AL IN h r0 h0 R) as (A1 & A2 & A3).
        destruct r0 as [[q F]|]; injection H as <- <-; (split; [exact A1|]).
        + split; [exact A2|]. intros h'. destruct (A3 h') as (pv & ->). eexists; reflexivity.
        + split; [split; [exact IN|]; split; [reflexivity|]; split; [lia|]; intros _ _ k L; lia|]. intros h'. destruct (A3 h') as (pv & ->). eexists; reflexivity.
      - (* negation *) destruct (within_pred_ok _ _ _ _ T AL) as (CB & AB).
        destruct (rec (as_pred rd) b p h) as [[r0 h0]| |] eqn:R; try discriminate H. cbn [bind] in H. destruct (REC _ _ b p CB AB IN h r0 h0 R) as (A1 & A2 & A3).
        destruct r0 as [[q F]|]; injection H as <- <-; (split; [exact A1|]).
        + split; [exact I|]. intros h'. destruct (A3 h') as (pv & ->). eexists; reflexivity.
        + split; [split; [exact IN|]; split; [reflexivity|]; split; [lia|]; intros _ _ k L; lia|]. intros h'. destruct (A3 h') as (pv & ->). eexists; reflexivity.
      - (* eof *) rewrite (sh_empty p IN). destruct (p_empty p); injection H as <- <-; (split; [reflexivity|]).
        + split; [split; [exact IN|]; split; [reflexivity|]; split; [lia|]; intros _ _ k L; lia|]. intros [pv rp]. exists pv. reflexivity.
        + split; [exact I|]. intros [pv rp]. exists pv. reflexivity.
      - (* any *) destruct (one D p) as [o| |] eqn:O; try discriminate H. cbn [bind] in H. destruct (one_same p o IN O) as (-> & R). cbn [bind]. destruct o as [[t q]|]; injection H as <- <-; (split; [reflexivity|]).
        + destruct R as (Q1 & Q2 & Q3 & Q4). split; [|intros [pv rp]; exists pv; reflexivity]. repeat (split; [first [assumption|lia]|]). intros ZZ. apply negb_true_iff in T. rewrite T in ZZ. discriminate ZZ.
        + split; [exact I|]. intros [pv rp]. exists pv. reflexivity.
      - (* layer *) apply andb_prop in T. destruct T as [T1 T2]. destruct (within_pred_ok _ _ _ _ T1 AL) as (CB & AB). unfold sem_layer in *.
        destruct (rec (as_pred rd) l p h) as [[r0 h0]| |] eqn:R; try discriminate H. cbn [bind] in H. destruct (REC _ _ l p CB AB IN h r0 h0 R) as (A1 & A2 & A3).
        destruct r0 as [[k F0]|].
        2:{ injection H as <- <-. split; [exact A1|]. split; [exact I|]. intros h'. destruct (A3 h') as (pv & ->). eexists; reflexivity. }
        destruct A2 as (K1 & K2 & K3 & _). set (w := mkPos (p_cur p) (p_cur k)) in *.
        assert (IW : inside w) by (unfold inside, w in *; cbn [p_cur p_end]; lia).
        assert (SW : mkPos (p_cur (sh p)) (p_cur (sh k)) = sh w) by reflexivity.
        destruct (rec rd b w h0) as [[r2 h2]| |] eqn:R2; try discriminate H. cbn [bind] in H. destruct (rec_within e b rd rd' w T2 AL IW h0 r2 h2 R2) as (B1 & B2 & B3).
        set (lf := match r2 with Some x => x | None => (w, []) end) in *.
        assert (LF : inside (fst lf) /\ p_end (fst lf) = p_cur k /\ p_cur p <= p_cur (fst lf) /\ (z e && negb (r_pred rd) = true -> calms (snd lf) = true -> fit_toks (p_cur p) (p_cur (fst lf)))).
        { unfold lf. destruct r2 as [[q G]|]; [exact B2|]. cbn [fst snd]. split; [exact IW|]. split; [reflexivity|]. split; [cbn; lia|]. intros _ _ j L. cbn in L. lia. }
        assert (SL : match shr r2 with Some x => x | None => (sh w, []) end = (sh (fst lf), snd lf)) by (unfold lf; destruct r2 as [[q G]|]; reflexivity).
        clearbody lf. destruct lf as [lf F]. cbn [fst snd] in *. destruct LF as (L1 & L2 & L3 & L4). pose proof (sh_empty lf L1) as SE.
        assert (RUN : forall h', exists pv pv', rec' (as_pred rd') l (sh p) h' = Ok (Some (sh k, F0), mkRg pv (h_repl h')) /\ rec' rd' b (sh w) (mkRg pv (h_repl h')) = Ok (shr r2, mkRg pv' (h_repl h'))).
        { intros h'. destruct (A3 h') as (pv & E1). destruct (B3 (mkRg pv (h_repl h'))) as (pv' & E2). exists pv, pv'. split; [exact E1|exact E2]. }
        destruct (p_empty lf) eqn:PE.
        + injection H as <- <-. split; [congruence|]. split.
          * split; [exact K1|]. split; [exact K2|]. split; [exact K3|]. intros ZZ C. unfold p_empty in PE. apply Nat.eqb_eq in PE. rewrite <- L2, <- PE. exact (L4 ZZ C).
          * intros h'. destruct (RUN h') as (pv & pv' & -> & E2). cbn [bind]. rewrite SW, E2. cbn [bind]. rewrite SL, SE. exists pv'. reflexivity.
        + destruct (all_toks D (S (length (e_idx D))) lf) as [T| |] eqn:AT; try discriminate H. cbn [bind] in H. injection H as <- <-. split; [congruence|]. split.
          * split; [exact K1|]. split; [exact K2|]. split; [exact K3|]. intros ZZ C. apply calms_app in C. destruct C as [_ C]. discriminate C.
          * intros h'. destruct (RUN h') as (pv & pv' & -> & E2). cbn [bind]. rewrite SW, E2. cbn [bind]. rewrite SL, SE.
            assert (LN : p_end lf - p_cur lf < S (length (e_idx D'))).
            { destruct L1 as (M1 & M2 & M3). destruct (Nat.eq_dec n 0) as [Z|NZ]; [lia|]. destruct (SAME (n - 1) ltac:(lia)) as (o & o' & i & i' & t & _ & _ & I2 & _).
              assert (a' + (n - 1) < length (e_idx D')) by (apply nth_error_Some; congruence). lia. }
            rewrite (all_same _ lf T L1 AT _ LN). cbn [bind]. exists pv'. reflexivity.
      - (* pratt *) apply andb_prop in T. destruct T as [T T3]. apply andb_prop in T. destruct T as [T1 T2]. exact (go_fits e rd rd' t AL T1 T2 T3 fuel 0 p IN h r h1 H).
      - (* call *) apply andb_prop in T. destruct T as [T T4]. apply andb_prop in T. destruct T as [T T3]. apply andb_prop in T. destruct T as [T1 T2].
        destruct (bind_args D l (r_args rd)) as [B| |] eqn:BA; try discriminate H. cbn [bind] in H.
        destruct (bind_same e l _ B (r_args rd') (fr e) BA T4 (fun i J => J) (proj2 AL)) as (B' & BB & AB). rewrite BB. cbn [bind].
        assert (AB' : alike b (mkRd (r_pred rd) (r_ctxs rd) B) (mkRd (r_pred rd') (r_ctxs rd') B')).
        { split; [exact (proj1 AL)|]. eapply agree_sub; [|exact AB]. intros i J. rewrite forallb_forall in T3. specialize (T3 i J). apply orb_prop in T3. apply in_or_app.
          destruct T3 as [T3|T3]; apply memb_in in T3; auto. }
        destruct (REC _ _ b p T1 AB' IN h r h1 H) as (R1 & R2 & R3). split; [exact R1|]. split; [|exact R3]. destruct r as [[q F]|]; [|exact I].
        destruct R2 as (Q1 & Q2 & Q3 & Q4). repeat (split; [assumption|]). intros ZZ. apply Q4. cbn [r_pred]. apply andb_prop in ZZ. destruct ZZ as [ZE ->]. rewrite ZE in T2. cbn in T2. rewrite T2. reflexivity.
      - (* parameter *) destruct (proj2 (proj2 AL) i (memb_in _ _ T)) as (v & N1 & N2 & CV & ZV & FV). rewrite N1 in H. rewrite N2. cbn [unwrap bind] in H |- *.
        assert (AV : alike v rd rd') by (split; [exact (proj1 AL)|]; rewrite FV; split; [exact (proj1 (proj2 AL))|intros j []]).
        destruct (REC rd rd' v p CV AV IN h r h1 H) as (R1 & R2 & R3). split; [exact R1|]. split; [|exact R3]. destruct r as [[q F]|]; [|exact I].
        destruct R2 as (Q1 & Q2 & Q3 & Q4). repeat (split; [assumption|]). intros ZZ. apply Q4. apply andb_prop in ZZ. destruct ZZ as [_ ->]. rewrite ZV. reflexivity.
    Qed.
  End Rec.

  Lemma sem_fits : forall f rd rd' e p, c e = true -> alike e rd rd' -> inside p -> fits (z e && negb (r_pred rd)) p (sem D f rd e p) (sem D' f rd' e (sh p)).
  Proof.
    induction f as [|f IH]; intros rd rd' e p CE AL IN; [intros h r h1 H; discriminate H|]. cbn [sem]. apply step_fits; assumption.
  Qed.

  Lemma peg_inside : forall rd rd' e p h r h1, c e = true -> alike e rd rd' -> inside p -> peg D rd e p h r h1 -> h_repl h1 = h_repl h
    /\ match r with
       | Some (q, F) => inside q /\ p_end q = p_end p /\ p_cur p <= p_cur q /\ (z e && negb (r_pred rd) = true -> calms F = true -> fit_toks (p_cur p) (p_cur q))
       | None => True
       end
    /\ forall h', exists pv, peg D' rd' e (sh p) h' (shr r) (mkRg pv (h_repl h')).
  Proof.
    intros rd rd' e p h r h1 CE AL IN P. destruct (peg_complete D _ _ _ _ _ _ P) as (N & SN). destruct (sem_fits N rd rd' e p CE AL IN h r h1 (SN N (le_n _))) as (A & B & C).
    split; [exact A|]. split; [exact B|]. intros h'. destruct (C h') as (pv & X). exists pv. eapply sem_sound. exact X.
  Qed.
End Inside.
