(** The body of a rule of fall, which is what the parser caches, depends only on the text it consumes. *)
From Coq Require Import List Arith Bool Lia.
From Verif Require Import Base BaseFacts LexModel LexSpec LexProofs GrammarModel GrammarData ParserModel ForestSpec SemSpec PegSpec PegProofs WellFormed CheckProofs InsideProofs.
Import ListNotations.

(** ** Reading a derivation backwards *)
Section Inv.
  Variable E : env.
  Notation rule := (rule E).
  Notation peg := (peg E).
  Notation type := (type E).

  Ltac other := exfalso; unfold PegSpec.rule in *; congruence.
  Ltac back R P := inversion P; subst; unfold PegSpec.rule in *;
    match goal with X : nth_error (g_rules (e_g E)) ?e = Some _, Y : nth_error (g_rules (e_g E)) ?e = Some _ |- _ => rewrite X in Y; first [discriminate Y | injection Y as ?; subst] | _ => idtac end.

  Lemma inv_or : forall rd e l p h r h1, rule e (EOr l) -> peg rd e p h r h1 -> first_of E rd l p h r h1.
  Proof. intros rd e l p h r h1 R P. back R P. assumption. Qed.

  Lemma inv_and : forall rd e l c p h r h1, rule e (EAnd l c) -> peg rd e p h r h1 -> exists n q F, in_order E rd l p h n q F h1 /\
    match r with None => n < match c with Some k => k | None => length l end | Some (q', F') => q' = q /\ ((n = length l /\ F' = F) \/ (n < length l /\ c <> None /\ F' = F ++ [error_node []])) end.
  Proof. intros rd e l c p h r h1 R P. back R P; do 3 eexists; (split; [eassumption|]); auto. split; [reflexivity|]. right. split; [assumption|]. split; [discriminate|reflexivity]. Qed.

  Lemma inv_token : forall rd e ty t p h r h1, rule e (EToken ty) -> type ty t -> peg rd e p h r h1 -> h1 = h /\
    ((exists q, eat E p t q /\ r = Some (q, [PTok t 1])) \/ (r = None /\ (at_end p \/ exists t' q, eat E p t' q /\ t' <> t))).
  Proof.
    intros rd e ty t p h r h1 R T P. back R P; (split; [reflexivity|]).
    - left. unfold PegSpec.type in *. assert (t0 = t) by congruence. subst. eauto.
    - right. unfold PegSpec.type in *. assert (t0 = t) by congruence. subst. split; [reflexivity|]. right. eauto.
    - right. auto.
  Qed.

  Lemma inv_opt : forall rd e b p h r h1, rule e (EOpt b) -> peg rd e p h r h1 -> exists r0, peg rd b p h r0 h1 /\ r = Some (match r0 with Some x => x | None => (p, []) end).
  Proof. intros rd e b p h r h1 R P. back R P; eexists; (split; [eassumption|]); reflexivity. Qed.

  Lemma inv_rep : forall rd e b p h r h1, rule e (ERep b) -> peg rd e p h r h1 -> exists q F, greedy E rd b p h q F h1 /\ r = Some (q, F).
  Proof. intros rd e b p h r h1 R P. back R P. eauto. Qed.

  Lemma inv_not : forall rd e b p h r h1, rule e (ENot b) -> peg rd e p h r h1 -> exists r0, peg (pred_of rd) b p h r0 h1 /\ r = match r0 with Some _ => None | None => Some (p, []) end.
  Proof. intros rd e b p h r h1 R P. back R P; eexists; (split; [eassumption|]); reflexivity. Qed.

  Lemma inv_any : forall rd e p h r h1, rule e EAny -> peg rd e p h r h1 -> h1 = h /\ ((exists t q, eat E p t q /\ r = Some (q, [PTok t 1])) \/ (r = None /\ at_end p)).
  Proof. intros rd e p h r h1 R P. back R P; (split; [reflexivity|]); eauto 6. Qed.

  Lemma inv_var : forall rd e i v p h r h1, rule e (EVar i) -> nth_error (r_args rd) i = Some (Some v) -> peg rd e p h r h1 -> peg rd v p h r h1.
  Proof. intros rd e i v p h r h1 R N P. back R P. assert (e' = v) by congruence. subst. assumption. Qed.

  Lemma inv_call : forall rd e b l p h r h1, rule e (ECall b l) -> peg rd e p h r h1 -> exists a, binds E l (r_args rd) a /\ peg (with_args rd a) b p h r h1.
  Proof. intros rd e b l p h r h1 R P. back R P. eauto. Qed.

  Lemma inv_pub : forall rd e ty t b p h r h1, rule e (EPub ty b false) -> type ty t -> peg rd e p h r h1 ->
    exists r0 h0, peg rd b p h r0 h0 /\ match r0 with Some (q, F) => r = Some (q, [PNode t [] F]) /\ h1 = mkRg (Some t) (h_repl h0) | None => r = None /\ h1 = h0 end.
  Proof.
    intros rd e ty t b p h r h1 R T P. back R P; do 2 eexists; (split; [eassumption|]); cbn [h_prev h_repl]; auto. unfold PegSpec.type in *. assert (t0 = t) by congruence. subst. auto.
  Qed.

  Lemma inv_layer : forall rd e l b p h r h1, rule e (ELayer l b) -> peg rd e p h r h1 ->
    (r = None /\ peg (pred_of rd) l p h None h1) \/
    exists k F0 h0 r0 left_ F T, peg (pred_of rd) l p h (Some (k, F0)) h0 /\ peg rd b (mkPos (p_cur p) (p_cur k)) h0 r0 h1 /\
      match r0 with Some x => x = (left_, F) | None => left_ = mkPos (p_cur p) (p_cur k) /\ F = [] end /\ eats E left_ T /\
      r = Some (k, match T with [] => F | _ => F ++ [error_node T] end).
  Proof. intros rd e l b p h r h1 R P. back R P; [left; auto|]. right. do 7 eexists. split; [eassumption|]. split; [eassumption|]. split; [eassumption|]. split; [eassumption|]. reflexivity. Qed.

  Lemma inv_ctx : forall rd e ty txt p h r h1, rule e (EContextual ty txt) -> peg rd e p h r h1 -> h1 = h /\
    match r with Some (q, F) => exists t n, type ty t /\ ~ at_end p /\ text_here E p txt /\ whole E p (length txt) n q /\ F = [PTok t n] | None => True end.
  Proof. intros rd e ty txt p h r h1 R P. back R P; (split; [reflexivity|]); auto. do 2 eexists. eauto 6. Qed.

  Lemma inv_first1 : forall rd a p h r h1, first_of E rd [a] p h r h1 -> peg rd a p h r h1.
  Proof. intros rd a p h r h1 H. inversion H; subst; [assumption|]. match goal with X : first_of E rd [] _ _ _ _ |- _ => inversion X; subst end. assumption. Qed.

  Lemma or1 : forall rd e a p h r h1, rule e (EOr [a]) -> peg rd a p h r h1 -> peg rd e p h r h1.
  Proof. intros rd e a p h r h1 R P. eapply peg_or; [exact R|]. destruct r as [x|]; [constructor; exact P|]. eapply fo_later; [exact P|constructor]. Qed.

  (** A sequence of one. *)
  Lemma inv_and1 : forall rd e a p h r h1, rule e (EAnd [a] None) -> peg rd e p h r h1 -> peg rd a p h r h1.
  Proof.
    intros rd e a p h r h1 R P. destruct (inv_and _ _ _ _ _ _ _ _ R P) as (n & q & F & I & H). inversion I as [| |? ? ? ? ? p1 F1 h2 n1 ? G ? P1 I1]; subst.
    - destruct r as [[q' F']|]; [|assumption]. destruct H as (_ & [[X _]|(_ & X & _)]); [discriminate X|congruence].
    - inversion I1; subst. destruct r as [[q' F']|]; [|cbn in H; lia]. destruct H as (-> & [[_ ->]|(_ & X & _)]); [|congruence]. rewrite app_nil_r. exact P1.
  Qed.

  Lemma and1 : forall rd e a p h r h1, rule e (EAnd [a] None) -> peg rd a p h r h1 -> peg rd e p h r h1.
  Proof.
    intros rd e a p h r h1 R P. destruct r as [[q F]|].
    - rewrite <- (app_nil_r F). eapply peg_and_all; [exact R|exact I|]. eapply io_more; [exact P|constructor].
    - eapply peg_and_fail; [exact R| |constructor; exact P]. cbn. lia.
  Qed.

  Lemma eat_fun : forall p t q t' q', eat E p t q -> eat E p t' q' -> t = t' /\ q = q'.
  Proof.
    intros p t q t' q' (_ & (x & (o & i & A & B) & <-) & ->) (_ & (x' & (o' & i' & A' & B') & <-) & ->). rewrite A in A'. injection A' as <- <-. rewrite B in B'. injection B' as <-. auto.
  Qed.
End Inv.

(** ** Balanced brackets *)

(** [rule_is E]: the grammar is that of fall. *)
Lemma fall_rule : forall E e x, e_g E = fall_grammar -> nth_error (g_rules fall_grammar) e = Some x -> rule E e x.
Proof. intros E e x G H. unfold rule. rewrite G. exact H. Qed.
Lemma fall_type : forall E e x, e_g E = fall_grammar -> nth_error (g_types fall_grammar) e = Some x -> type E e x.
Proof. intros E e x G H. unfold type. rewrite G. exact H. Qed.

(** The opening and the closing token are arguments 2 and 3. *)
Record brackets (E : env) (rd : reader) (b k : nat) : Prop := {
  br_open : exists e ty, nth_error (r_args rd) 2 = Some (Some e) /\ rule E e (EToken ty) /\ type E ty b;
  br_close : exists e ty, nth_error (r_args rd) 3 = Some (Some e) /\ rule E e (EToken ty) /\ type E ty k;
  br_apart : b <> k }.

Lemma brackets_pred : forall E rd b k, brackets E rd b k -> brackets E (pred_of rd) b k.
Proof. intros E rd b k [A B C]. split; assumption. Qed.

Lemma set_nth_same : forall A (l : list A) i x, nth_error l i = Some x -> set_nth i x l = l.
Proof. induction l as [|y l IH]; intros [|i] x H; cbn in *; try discriminate; [congruence|]. f_equal. exact (IH _ _ H). Qed.

Section Balanced.
  Variable E : env.
  Hypothesis G : e_g E = fall_grammar.
  Ltac r := first [apply fall_rule; [exact G|reflexivity] | apply fall_type; [exact G|reflexivity]].

  (** The call of the rule in itself changes no arguments. *)
  Lemma binds_self : forall rd b k a, brackets E rd b k -> binds E [(2, 186); (3, 187)] (r_args rd) a -> a = r_args rd.
  Proof.
    intros rd b k a [(e2 & ty2 & A2 & _) (e3 & ty3 & A3 & _) _] H. assert (R2 : rule E 186 (EVar 2)) by r. assert (R3 : rule E 187 (EVar 3)) by r.
    inversion H as [|? ? ? ? ? x RX NV|? ? ? ? ? j v RX NJ LI BR]; subst; [unfold rule in *; rewrite R2 in RX; injection RX as <-; destruct (NV 2 eq_refl)|].
    unfold rule in R2, RX. rewrite R2 in RX. injection RX as <-. rewrite A2 in NJ. injection NJ as <-. rewrite (set_nth_same _ _ _ _ A2) in BR.
    inversion BR as [|? ? ? ? ? x RX NV|? ? ? ? ? j v RX NJ LI' BR']; subst; [unfold rule in *; rewrite R3 in RX; injection RX as <-; destruct (NV 3 eq_refl)|].
    unfold rule in R3, RX. rewrite R3 in RX. injection RX as <-. rewrite A3 in NJ. injection NJ as <-. rewrite (set_nth_same _ _ _ _ A3) in BR'. inversion BR'; subst. reflexivity.
  Qed.

  Lemma self_binds : forall rd b k, brackets E rd b k -> binds E [(2, 186); (3, 187)] (r_args rd) (r_args rd).
  Proof.
    intros rd b k [(e2 & ty2 & A2 & _) (e3 & ty3 & A3 & _) _]. eapply bi_var; [r|exact A2|apply nth_error_Some; congruence|]. rewrite (set_nth_same _ _ _ _ A2).
    eapply bi_var; [r|exact A3|apply nth_error_Some; congruence|]. rewrite (set_nth_same _ _ _ _ A3). constructor.
  Qed.

  Lemma with_own : forall rd, with_args rd (r_args rd) = rd.
  Proof. intros [a b c]. reflexivity. Qed.

  Lemma bracket_var : forall rd b k e i, brackets E rd b k -> (i = 2 /\ rule E e (EVar 2)) \/ (i = 3 /\ rule E e (EVar 3)) -> forall p h r h1, peg E rd e p h r h1 ->
    h1 = h /\ let t := if i =? 2 then b else k in
    ((exists q, eat E p t q /\ r = Some (q, [PTok t 1])) \/ (r = None /\ (at_end p \/ exists t' q, eat E p t' q /\ t' <> t))).
  Proof.
    intros rd b k e i [(e2 & ty2 & A2 & R2 & T2) (e3 & ty3 & A3 & R3 & T3) _] [[-> R]|[-> R]] p h r h1 P; cbv zeta; cbn [Nat.eqb].
    - eapply inv_token; [exact R2|exact T2|]. eapply inv_var; eauto.
    - eapply inv_token; [exact R3|exact T3|]. eapply inv_var; eauto.
  Qed.

  (** The rule is a greedy repetition. *)
  Lemma inv_balanced : forall rd p h r h1, peg E rd 25 p h r h1 -> exists q F, greedy E rd 197 p h q F h1 /\ r = Some (q, F).
  Proof.
    intros rd p h r h1 P. apply (inv_or E _ _ [199]) in P; [|r]. apply inv_first1 in P. apply (inv_and1 E _ _ 198) in P; [|r]. eapply inv_rep; [|exact P]. r.
  Qed.

  Lemma balanced : forall rd p h q F h1, greedy E rd 197 p h q F h1 -> peg E rd 25 p h (Some (q, F)) h1.
  Proof. intros rd p h q F h1 P. eapply or1; [r|]. eapply and1; [r|]. eapply peg_rep; [r|exact P]. Qed.

  Lemma greedy_fun : forall rd p h q F h1 q' F' h1', greedy E rd 197 p h q F h1 -> greedy E rd 197 p h q' F' h1' -> q = q' /\ F = F' /\ h1 = h1'.
  Proof. intros rd p h q F h1 q' F' h1' A B. destruct (peg_fun E _ _ _ _ _ _ _ _ (balanced _ _ _ _ _ _ A) (balanced _ _ _ _ _ _ B)) as [X ->]. injection X as -> ->. auto. Qed.

  (** One item: a bracketed group, or a token other than the closing one. *)
  Definition item (rd : reader) (b k : nat) (p : pos) (h : regs) (r : option (pos * list ptree)) (h1 : regs) : Prop :=
    match r with
    | Some (q, F) =>
        (exists p1 q1 F1 h2, eat E p b p1 /\ greedy E rd 197 p1 h q1 F1 h2 /\ eat E q1 k q /\ F = [PTok b 1] ++ F1 ++ [PTok k 1] /\ h1 = h2)
        \/ (exists t h2, eat E p t q /\ t <> k /\ F = [PTok t 1] /\ h1 = h2 /\
            ((t <> b /\ h2 = h) \/ (t = b /\ exists q1 F1, greedy E rd 197 q h q1 F1 h2 /\ ~ exists q2, eat E q1 k q2)))
    | None => (at_end p \/ exists q, eat E p k q) /\ h1 = h
    end.

  Lemma inv_item : forall rd b k p h r h1, brackets E rd b k -> peg E rd 197 p h r h1 -> item rd b k p h r h1.
  Proof.
    intros rd b k p h r h1 BR P. apply (inv_or E _ _ [190; 196]) in P; [|r].
    assert (V2 : rule E 185 (EVar 2)) by r. assert (V3 : rule E 189 (EVar 3)) by r. assert (V4 : rule E 191 (EVar 3)) by r.
    pose proof (bracket_var rd b k 185 2 BR (or_introl (conj eq_refl V2))) as OPEN. pose proof (bracket_var rd b k 189 3 BR (or_intror (conj eq_refl V3))) as CLOSE.
    pose proof (bracket_var _ b k 191 3 (brackets_pred _ _ _ _ BR) (or_intror (conj eq_refl V4))) as CLOSE_P. cbv zeta in OPEN, CLOSE, CLOSE_P. cbn [Nat.eqb] in OPEN, CLOSE, CLOSE_P.
    assert (GROUP : forall r0 h0, peg E rd 190 p h r0 h0 ->
      match r0 with
      | Some (q, F) => exists p1 q1 F1, eat E p b p1 /\ greedy E rd 197 p1 h q1 F1 h0 /\ eat E q1 k q /\ F = [PTok b 1] ++ F1 ++ [PTok k 1]
      | None => ((at_end p \/ exists t q, eat E p t q /\ t <> b) /\ h0 = h) \/ exists p1 q1 F1, eat E p b p1 /\ greedy E rd 197 p1 h q1 F1 h0 /\ ~ exists q2, eat E q1 k q2
      end).
    { intros r0 h0 P0. apply (inv_and E _ _ [185; 188; 189] None) in P0; [|r]. destruct P0 as (n & q & F & IO & H).
      inversion IO as [|? ? ? ? ? ? P1|? ? ? ? ? p1 F1 h2 n1 ? G1 ? P1 I1]; subst.
      - destruct (OPEN _ _ _ _ P1) as [-> [(q0 & EA & X)|(_ & X)]]; [discriminate X|].
        destruct r0 as [[q' F']|]; [destruct H as (_ & [[X0 _]|(_ & X0 & _)]); [discriminate X0|congruence]|]. left. split; [exact X|reflexivity].
      - destruct (OPEN _ _ _ _ P1) as [-> [(p1' & EA & X)|(X & _)]]; [|discriminate X]. injection X as <- ->.
        assert (CALL : forall r1 h3, peg E rd 188 p1 h r1 h3 -> exists q1 F1, greedy E rd 197 p1 h q1 F1 h3 /\ r1 = Some (q1, F1)).
        { intros r1 h3 P3. apply (inv_call E _ _ 25 [(2, 186); (3, 187)]) in P3; [|r]. destruct P3 as (a & BA & P3). rewrite (binds_self _ _ _ _ BR BA), with_own in P3. exact (inv_balanced _ _ _ _ _ P3). }
        inversion I1 as [|? ? ? ? ? ? P2|? ? ? ? ? p2 F2 h3 n2 ? G2 ? P2 I2]; subst; destruct (CALL _ _ P2) as (q1 & FF & GR & X); [discriminate X|]. injection X as <- <-.
        inversion I2 as [|? ? ? ? ? ? P3|? ? ? ? ? p3 F3 h4 n3 ? G3 ? P3 I3]; subst.
        + destruct (CLOSE _ _ _ _ P3) as [-> [(q0 & EB & X)|(_ & X)]]; [discriminate X|].
          destruct r0 as [[q' F']|]; [destruct H as (_ & [[X0 _]|(_ & X0 & _)]); [discriminate X0|congruence]|]. right. do 3 eexists. split; [exact EA|]. split; [exact GR|].
          intros (z & EZ). destruct X as [X|(t' & q' & X1 & X2)]; [exact (proj1 EZ X)|]. destruct (eat_fun _ _ _ _ _ _ EZ X1). congruence.
        + destruct (CLOSE _ _ _ _ P3) as [-> [(q0 & EB & X)|(X & _)]]; [|discriminate X]. injection X as <- ->. inversion I3; subst.
          destruct r0 as [[q' F']|]; [|cbn in H; lia]. destruct H as (-> & [[_ ->]|(_ & X & _)]); [|congruence]. do 3 eexists. split; [exact EA|]. split; [exact GR|]. split; [exact EB|]. reflexivity. }
    inversion P as [|? ? ? ? ? x ? PG|? ? ? ? ? h2 ? ? PG PF]; subst.
    - specialize (GROUP _ _ PG). destruct x as [q F]. destruct GROUP as (p1 & q1 & F1 & X1 & X2 & X3 & X4). left. exists p1, q1, F1, h1. auto.
    - specialize (GROUP _ _ PG). apply inv_first1 in PF. apply (inv_and1 E _ _ 195) in PF; [|r]. apply (inv_or E _ _ [194]) in PF; [|r]. apply inv_first1 in PF.
      apply (inv_and E _ _ [192; 193] None) in PF; [|r]. destruct PF as (n & q & F & IO & H).
      assert (NOT : forall r1 h3, peg E rd 192 p h2 r1 h3 -> h3 = h2 /\ ((r1 = None /\ exists q, eat E p k q) \/ (r1 = Some (p, []) /\ (at_end p \/ exists t q, eat E p t q /\ t <> k)))).
      { intros r1 h3 P3. apply (inv_not E _ _ 191) in P3; [|r]. destruct P3 as (r2 & P3 & ->). destruct (CLOSE_P _ _ _ _ P3) as [-> X].
        split; [reflexivity|]. destruct X as [(q0 & X & ->)|(-> & X)]; [left|right]; eauto. }
      inversion IO as [|? ? ? ? ? ? P1|? ? ? ? ? p1 F1 h3 n1 ? G1 ? P1 I1]; subst.
      + destruct (NOT _ _ P1) as [-> [(_ & q0 & X)|(X & _)]]; [|discriminate X]. destruct r as [[q' F']|]; [destruct H as (_ & [[X0 _]|(_ & X0 & _)]); [discriminate X0|congruence]|].
        split; [right; eauto|]. destruct GROUP as [[_ ->]|(p1 & q1 & F1 & X1 & _)]; [reflexivity|]. destruct (eat_fun _ _ _ _ _ _ X X1) as [X2 _]. destruct (br_apart _ _ _ _ BR). congruence.
      + destruct (NOT _ _ P1) as [-> [(X & _)|(X & Y)]]; [discriminate X|]. injection X as -> ->. inversion I1 as [|? ? ? ? ? ? P2|? ? ? ? ? p2 F2 h4 n2 ? G2 ? P2 I2]; subst.
        * apply inv_any in P2; [|r]. destruct P2 as [-> [(t & q0 & _ & X)|(_ & X)]]; [discriminate X|]. destruct r as [[q' F']|]; [destruct H as (_ & [[X0 _]|(_ & X0 & _)]); [discriminate X0|congruence]|].
          split; [left; exact X|]. destruct GROUP as [[_ ->]|(p1 & q1 & F1 & X1 & _)]; [reflexivity|]. destruct (proj1 X1 X).
        * apply inv_any in P2; [|r]. destruct P2 as [-> [(t & q0 & EA & X)|(X & _)]]; [|discriminate X]. injection X as <- ->. inversion I2; subst.
          destruct r as [[q' F']|]; [|cbn in H; lia]. destruct H as (-> & [[_ ->]|(_ & X & _)]); [|congruence]. right. exists t, h1. split; [exact EA|]. split.
          { destruct Y as [Y|(t' & z & Y1 & Y2)]; [destruct (proj1 EA Y)|]. destruct (eat_fun _ _ _ _ _ _ EA Y1). congruence. }
          split; [reflexivity|]. split; [reflexivity|]. destruct GROUP as [[X ->]|(p1 & q1 & F1 & X1 & X2 & X3)].
          -- left. split; [|reflexivity]. destruct X as [X|(t' & z & X1 & X2)]; [destruct (proj1 EA X)|]. destruct (eat_fun _ _ _ _ _ _ EA X1). congruence.
          -- right. destruct (eat_fun _ _ _ _ _ _ EA X1) as [-> ->]. split; [reflexivity|]. eauto.
  Qed.

  Lemma item_group : forall rd b k p h p1 q1 F1 h1 q, brackets E rd b k -> eat E p b p1 -> greedy E rd 197 p1 h q1 F1 h1 -> eat E q1 k q ->
    peg E rd 197 p h (Some (q, [PTok b 1] ++ F1 ++ [PTok k 1])) h1.
  Proof.
    intros rd b k p h p1 q1 F1 h1 q BR EA GR EB. pose proof BR as [(e2 & ty2 & A2 & R2 & T2) (e3 & ty3 & A3 & R3 & T3) _].
    eapply peg_or; [r|]. apply fo_here. eapply peg_and_all; [r|exact I|].
    eapply io_more; [eapply peg_var; [r|exact A2|]; eapply peg_token; [exact R2|exact T2|exact EA]|].
    eapply io_more; [eapply peg_call; [r|exact (self_binds _ _ _ BR)|]; rewrite with_own; apply balanced; exact GR|].
    rewrite <- (app_nil_r [PTok k 1]). eapply io_more; [eapply peg_var; [r|exact A3|]; eapply peg_token; [exact R3|exact T3|exact EB]|constructor].
  Qed.

  Lemma item_token : forall rd b k p h t q, brackets E rd b k -> eat E p t q -> t <> b -> t <> k -> peg E rd 197 p h (Some (q, [PTok t 1])) h.
  Proof.
    intros rd b k p h t q BR EA NB NK. pose proof BR as [(e2 & ty2 & A2 & R2 & T2) (e3 & ty3 & A3 & R3 & T3) _].
    eapply peg_or; [r|]. eapply fo_later.
    - eapply peg_and_fail with (n := 0); [r|cbn; lia|]. apply io_stop. eapply peg_var; [r|exact A2|]. eapply peg_token_other; [exact R2|exact T2|exact EA|exact NB].
    - apply fo_here. eapply and1; [r|]. eapply or1; [r|]. eapply peg_and_all; [r|exact I|]. change [PTok t 1] with ([] ++ [PTok t 1] ++ []).
      eapply io_more; [eapply peg_not; [r|]; eapply peg_var; [r|exact A3|]; eapply peg_token_other; [exact R3|exact T3|exact EA|exact NK]|].
      eapply io_more; [eapply peg_any; [r|exact EA]|constructor].
  Qed.

  Lemma item_close : forall rd b k p h q, brackets E rd b k -> eat E p k q -> peg E rd 197 p h None h.
  Proof.
    intros rd b k p h q BR EA. pose proof BR as [(e2 & ty2 & A2 & R2 & T2) (e3 & ty3 & A3 & R3 & T3) NE].
    eapply peg_or; [r|]. eapply fo_later.
    - eapply peg_and_fail with (n := 0); [r|cbn; lia|]. apply io_stop. eapply peg_var; [r|exact A2|]. eapply peg_token_other; [exact R2|exact T2|exact EA|congruence].
    - eapply fo_later; [|constructor]. eapply and1; [r|]. eapply or1; [r|]. eapply peg_and_fail with (n := 0); [r|cbn; lia|]. apply io_stop.
      eapply peg_not_fail; [r|]. eapply peg_var; [r|exact A3|]. eapply peg_token; [exact R3|exact T3|exact EA].
  Qed.
End Balanced.

Section Runs.
  Variable E : env.
  Hypothesis G : e_g E = fall_grammar.
  Variables (rd : reader) (b k : nat).
  Hypothesis BR : brackets E rd b k.

  Lemma eat_next : forall p t q, eat E p t q -> p_cur q = S (p_cur p) /\ p_end q = p_end p /\ p_cur p <> p_end p.
  Proof. intros p t q (N & _ & ->). split; [reflexivity|]. split; [reflexivity|exact N]. Qed.

  (** A run stays in the window, and stops at its end or before a closing token. *)
  Lemma bal_run : forall m p h q F h1, p_end p - p_cur p <= m -> p_cur p <= p_end p -> greedy E rd 197 p h q F h1 ->
    h1 = h /\ p_cur p <= p_cur q <= p_end p /\ p_end q = p_end p /\ (at_end q \/ exists z, eat E q k z).
  Proof.
    induction m as [m IH] using lt_wf_ind. intros p h q F h1 LM LE GR. inversion GR as [? ? ? ? ? PG|? ? ? ? p1 F1 h2 ? G2 ? PG GR2]; subst.
    - apply (inv_item E G _ b k) in PG; [|exact BR]. destruct PG as [X ->]. split; [reflexivity|]. split; [lia|]. split; [reflexivity|exact X].
    - apply (inv_item E G _ b k) in PG; [|exact BR]. destruct PG as [(p2 & q2 & F2 & h3 & EA & GI & EB & _ & ->)|(t & h3 & EA & _ & _ & -> & X)].
      + destruct (eat_next _ _ _ EA) as (N1 & N2 & N3). destruct (IH (p_end p2 - p_cur p2) ltac:(lia) p2 h q2 F2 h3 ltac:(lia) ltac:(lia) GI) as (-> & L1 & L2 & _).
        destruct (eat_next _ _ _ EB) as (M1 & M2 & M3). destruct (IH (p_end p1 - p_cur p1) ltac:(lia) p1 h q G2 h1 ltac:(lia) ltac:(lia) GR2) as (-> & K1 & K2 & K3).
        split; [reflexivity|]. split; [lia|]. split; [congruence|exact K3].
      + destruct (eat_next _ _ _ EA) as (N1 & N2 & N3). assert (H3 : h3 = h).
        { destruct X as [[_ X]|(_ & q1 & F1' & GI & _)]; [exact X|]. exact (proj1 (IH (p_end p1 - p_cur p1) ltac:(lia) p1 h q1 F1' h3 ltac:(lia) ltac:(lia) GI)). }
        subst h3. destruct (IH (p_end p1 - p_cur p1) ltac:(lia) p1 h q G2 h1 ltac:(lia) ltac:(lia) GR2) as (-> & K1 & K2 & K3).
        split; [reflexivity|]. split; [lia|]. split; [congruence|exact K3].
  Qed.
End Runs.

(** The [n] tokens from [a] on in one file and from [a'] on in the other are the same. *)
Definition same_toks (E E' : env) (a a' n : nat) : Prop := forall k, k < n -> exists o o' i i' t, nth_error (e_idx E) (a + k) = Some (o, i) /\ nth_error (e_toks E) i = Some t
    /\ nth_error (e_idx E') (a' + k) = Some (o', i') /\ nth_error (e_toks E') i' = Some t.

Section Moved.
  Variables (E E' : env) (a a' n : nat).
  Hypothesis G : e_g E = fall_grammar.
  Hypothesis G' : e_g E' = fall_grammar.
  Hypothesis SAME : same_toks E E' a a' n.

  Lemma eat_moved : forall p t q e', eat E p t q -> a <= p_cur p < a + n -> p_cur p - a + a' < e' -> eat E' (mkPos (p_cur p - a + a') e') t (mkPos (p_cur q - a + a') e').
  Proof.
    intros p t q e' (N & (x & (o & i & I1 & T1) & TY) & ->) L LE. destruct (SAME (p_cur p - a) ltac:(lia)) as (o1 & o2 & i1 & i2 & y & J1 & J2 & J3 & J4).
    replace (a + (p_cur p - a)) with (p_cur p) in J1 by lia. rewrite J1 in I1. injection I1 as -> ->. rewrite J2 in T1. injection T1 as ->.
    unfold eat, at_end. cbn [p_cur p_end]. split; [lia|]. split; [|f_equal; lia]. exists x. split; [|exact TY]. exists o2, i2. replace (p_cur p - a + a') with (a' + (p_cur p - a)) by lia. auto.
  Qed.

  Variables (rd rd' : reader) (b k : nat).
  Hypothesis BR : brackets E rd b k.
  Hypothesis BR' : brackets E' rd' b k.

  Lemma bal_moved : forall m p h q F h1 z, p_end p - p_cur p <= m -> p_cur p <= p_end p -> greedy E rd 197 p h q F h1 -> eat E q k z -> a <= p_cur p -> p_cur q < a + n ->
    forall h' e', p_cur q - a + a' < e' -> greedy E' rd' 197 (mkPos (p_cur p - a + a') e') h' (mkPos (p_cur q - a + a') e') F h'.
  Proof.
    induction m as [m IH] using lt_wf_ind. intros p h q F h1 z LM LE GR EZ LA LN h' e' LE'.
    destruct (bal_run E G rd b k BR m p h q F h1 LM LE GR) as (-> & B1 & B2 & _). inversion GR as [? ? ? ? ? PG|? ? ? ? p1 F1 h2 ? G2 ? PG GR2]; subst.
    - apply gr_stop. eapply (item_close E' G'); [exact BR'|]. apply eat_moved with (1 := EZ); lia.
    - apply (inv_item E G _ b k) in PG; [|exact BR]. destruct PG as [(p2 & q2 & F2 & h3 & EA & GI & EB & -> & ->)|(t & h3 & EA & NK & -> & -> & X)].
      + destruct (eat_next _ _ _ _ EA) as (N1 & N2 & N3). destruct (bal_run E G rd b k BR _ p2 h q2 F2 h3 (le_n _) ltac:(lia) GI) as (-> & L1 & L2 & _).
        destruct (eat_next _ _ _ _ EB) as (M1 & M2 & M3). destruct (bal_run E G rd b k BR _ p1 h q G2 h (le_n _) ltac:(lia) GR2) as (_ & K1 & K2 & K3).
        pose proof (IH (p_end p2 - p_cur p2) ltac:(lia) p2 h q2 F2 h p1 ltac:(lia) ltac:(lia) GI EB ltac:(lia) ltac:(lia) h' e' ltac:(lia)) as GI'.
        pose proof (IH (p_end p1 - p_cur p1) ltac:(lia) p1 h q G2 h z ltac:(lia) ltac:(lia) GR2 EZ ltac:(lia) ltac:(lia) h' e' ltac:(lia)) as GR'.
        eapply gr_more; [|exact GR']. eapply (item_group E' G'); [exact BR'|apply eat_moved with (1 := EA); lia|exact GI'|apply eat_moved with (1 := EB); lia].
      + destruct (eat_next _ _ _ _ EA) as (N1 & N2 & N3). destruct X as [[NB ->]|(-> & q1 & F1' & GI & NZ)].
        * destruct (bal_run E G rd b k BR _ p1 h q G2 h (le_n _) ltac:(lia) GR2) as (_ & K1 & K2 & K3).
          pose proof (IH (p_end p1 - p_cur p1) ltac:(lia) p1 h q G2 h z ltac:(lia) ltac:(lia) GR2 EZ ltac:(lia) ltac:(lia) h' e' ltac:(lia)) as GR'.
          eapply gr_more; [|exact GR']. eapply (item_token E' G'); [exact BR'|apply eat_moved with (1 := EA); lia|exact NB|exact NK].
        * exfalso. apply NZ. destruct (bal_run E G rd b k BR _ p1 h q1 F1' h3 (le_n _) ltac:(lia) GI) as (-> & _).
          destruct (greedy_fun E G _ _ _ _ _ _ _ _ _ GI GR2) as (-> & _). eauto.
  Qed.
End Moved.
