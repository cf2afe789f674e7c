(** The static check of WellFormed.v is sound: a runnable grammar prescribes an outcome for every expression at every
    position. *)
From Coq Require Import List Arith Bool Lia.
From Verif Require Import Base BaseFacts LexModel LexSpec LexProofs GrammarModel ParserModel ForestSpec SemSpec PegSpec PegFacts
  RefineProofs ReshuffleProofs SpanProofs WellFormed.
Import ListNotations.

Ltac split_andb := repeat match goal with H : _ && _ = true |- _ => apply andb_true_iff in H; destruct H end.

Lemma implb_use : forall a b, implb a b = true -> a = true -> b = true.
Proof. intros [] [] H A; auto. Qed.
Lemma implb_not : forall a b, implb a b = true -> b = false -> a = false.
Proof. intros [] [] H A; auto. Qed.
Lemma memb_in : forall x l, memb x l = true -> In x l.
Proof. intros x l H. unfold memb in H. apply existsb_exists in H. destruct H as (y & I & Q). apply Nat.eqb_eq in Q. subst. exact I. Qed.
Lemma in_memb : forall x l, In x l -> memb x l = true.
Proof. intros x l H. unfold memb. apply existsb_exists. exists x. split; auto. apply Nat.eqb_refl. Qed.
Lemma inclb_incl : forall a b, inclb a b = true -> incl a b.
Proof. intros a b H x X. unfold inclb in H. rewrite forallb_forall in H. apply memb_in, H, X. Qed.
Lemma emptyb_nil : forall A (l : list A), emptyb l = true -> l = [].
Proof. intros A [|x l] H; [reflexivity|discriminate]. Qed.

(** ** Shapes *)
Definition shaped (s : shape) (F : list ptree) : Prop :=
  match F with
  | [] => sh_none s
  | PNode _ [] _ :: _ => sh_fresh s
  | PNode _ (_ :: _) _ :: _ => sh_stale s
  | _ => sh_other s
  end = true.

Lemma shaped_le : forall a b F, sh_le a b = true -> shaped a F -> shaped b F.
Proof.
  intros a b F H. unfold sh_le in H. split_andb. unfold shaped. destruct F as [|[ty [|x pre] body|ty n|k body] F]; apply implb_use; auto.
Qed.

Lemma shaped_then : forall a b F G, shaped a F -> shaped b G -> shaped (sh_then a b) (F ++ G).
Proof.
  intros a b F G A B. destruct F as [|t F].
  - cbn [app]. unfold shaped in A. unfold sh_then. rewrite A. unfold shaped in *. destruct G as [|[ty [|x pre] body|ty n|k body] G]; cbn; rewrite ?B, ?orb_true_r; auto.
  - unfold sh_then. cbn [app]. destruct (sh_none a); [|destruct t as [ty [|x pre] body|ty n|k body]; exact A].
    destruct t as [ty [|x pre] body|ty n|k body]; unfold shaped in *; cbn; rewrite A; reflexivity.
Qed.

Section Sound.
  Variable E : env.
  Variable c : cert.
  Notation g := (e_g E).
  Notation get := (get c).
  Notation bound_to := (bound_to c).

  Hypothesis CK : forall e x, rule E e x -> check_rule g c (get e) x = true.
  Hypothesis ARGS : forall v x, In x (bound_to v) -> is_rule g x = true /\ c_need (get x) = [] /\ c_left (get x) = [].
  (** Every position in the window has its token, inside the text. *)
  Hypothesis TOKS : forall k, k < length (e_idx E) -> exists o raw t,
    nth_error (e_idx E) k = Some (o, raw) /\ nth_error (e_toks E) raw = Some t /\ o <= length (e_text E).

  Lemma is_rule_ok : forall e, is_rule g e = true -> exists x, rule E e x.
  Proof.
    intros e H. apply Nat.ltb_lt in H. unfold rule. destruct (nth_error (g_rules g) e) eqn:Q; [eauto|]. apply nth_error_None in Q. lia.
  Qed.
  Lemma is_type_ok : forall i, is_type g i = true -> exists t, type E i t.
  Proof.
    intros i H. apply Nat.ltb_lt in H. unfold type. destruct (nth_error (g_types g) i) eqn:Q; [eauto|]. apply nth_error_None in Q. lia.
  Qed.

  (** ** Invariants *)
  Definition good_args (a : list (option nat)) : Prop :=
    length a = 16 /\ forall v x, nth_error a v = Some (Some x) -> In x (bound_to v).
  Definition has (a : list (option nat)) (v : nat) : Prop := exists x, nth_error a v = Some (Some x).
  Definition good_rd (rd : reader) (need : list nat) : Prop :=
    length (r_ctxs rd) = 16 /\ good_args (r_args rd) /\ forall v, In v need -> has (r_args rd) v.
  Definition safe_for (rd : reader) (e : nat) : Prop := r_pred rd = true -> c_safe (get e) = true.
  Definition good_h (h : regs) : Prop := forall i, h_repl h = Some i -> exists t, type E i t.
  Definition in_range (p : pos) : Prop := p_cur p <= p_end p <= length (e_idx E).
  Definition size (p : pos) : nat := p_end p - p_cur p.

  Definition arg_base (a : list (option nat)) (v : nat) : nat :=
    match nth_error a v with Some (Some x) => c_base (get x) | _ => 0 end.
  Definition top (a : list (option nat)) (l : list nat) : nat := fold_right (fun v m => Nat.max (arg_base a v) m) 0 l.
  (** The measure that decreases when an expression tries another one at the same position. *)
  Definition weight (e : nat) (a : list (option nat)) : nat := c_base (get e) + top a (c_left (get e)).

  Lemma top_in : forall a l v, In v l -> arg_base a v <= top a l.
  Proof. induction l as [|x l IH]; intros v H; [destruct H|]. unfold top in *. cbn [fold_right]. destruct H as [->|H]; [lia|]. apply IH in H. lia. Qed.
  Lemma top_le : forall a l n, (forall v, In v l -> arg_base a v <= n) -> top a l <= n.
  Proof. induction l as [|x l IH]; intros n H; [apply Nat.le_0_l|]. assert (A := H x (or_introl eq_refl)). assert (B : top a l <= n) by (apply IH; intros; apply H; right; auto). unfold top in *. cbn [fold_right]. lia. Qed.

  Lemma left_weight : forall e b a, at_left c (get e) b = true -> weight b a < weight e a.
  Proof.
    intros e b a H. unfold at_left in H. split_andb. apply Nat.ltb_lt in H. apply inclb_incl in H0. unfold weight.
    assert (top a (c_left (get b)) <= top a (c_left (get e))) by (apply top_le; intros v V; apply top_in; auto). lia.
  Qed.

  Definition outcome_ok (i : info) (p : pos) (r : option (pos * list ptree)) : Prop :=
    match r with
    | Some (q, F) => inw p q /\ (c_null i = false -> p_cur p < p_cur q) /\ (F = [] -> p_cur q = p_cur p) /\ shaped (c_shape i) F
    | None => c_total i = false
    end.

  Definition runs (rd : reader) (e : nat) (p : pos) (h : regs) : Prop :=
    exists r h', peg E rd e p h r h' /\ good_h h' /\ outcome_ok (get e) p r.

  Lemma range_inw : forall p q, in_range p -> inw p q -> in_range q /\ size q <= size p.
  Proof. unfold in_range, inw, size. intros p q A B. specialize (B (proj1 A)). lia. Qed.

  Lemma size_less : forall p q, in_range p -> inw p q -> p_cur p < p_cur q -> size q < size p.
  Proof. unfold in_range, inw, size. intros p q A B C. specialize (B (proj1 A)). lia. Qed.

  Lemma eat_ok : forall p, in_range p -> at_end p \/ exists t q, eat E p t q.
  Proof.
    intros p R. destruct (Nat.eq_dec (p_cur p) (p_end p)) as [Q|Q]; [left; exact Q|right].
    unfold in_range in R. destruct (TOKS (p_cur p)) as (o & raw & t & A & B & _); [lia|].
    exists (tk_ty t), (mkPos (S (p_cur p)) (p_end p)). split; [exact Q|]. split; [|reflexivity]. exists t. split; [|reflexivity]. exists o, raw. auto.
  Qed.

  Lemma eat_less : forall p t q, eat E p t q -> p_cur q = S (p_cur p) /\ p_end q = p_end p.
  Proof. intros p t q (_ & _ & ->). cbn. auto. Qed.

  Lemma eats_ok : forall n p, size p <= n -> in_range p -> exists T, eats E p T.
  Proof.
    induction n as [|n IH]; intros p SZ R.
    - exists []. constructor. unfold at_end, size, in_range in *. lia.
    - destruct (eat_ok p R) as [Q|(t & q & Q)]; [exists []; constructor; exact Q|].
      destruct (eat_less _ _ _ Q) as [A B]. assert (NE : p_cur p <> p_end p) by (destruct Q as (Q & _); exact Q).
      destruct (IH q) as (T & HT); [unfold size, in_range in *; lia|unfold in_range in *; lia|]. exists (PTok t 1 :: T). econstructor; eauto.
  Qed.

  (** Whole tokens of a given total length, or not. *)
  Lemma whole_or_not : forall n len p, size p <= n -> in_range p -> (exists k q, whole E p len k q) \/ cut_short E p len.
  Proof.
    induction n as [|n IH]; intros len p SZ R; (destruct (Nat.eq_dec len 0) as [->|NZ]; [left; do 2 eexists; constructor|]).
    - right. apply cut_end; auto. unfold at_end, size, in_range in *. lia.
    - destruct (Nat.eq_dec (p_cur p) (p_end p)) as [Q|Q]; [right; apply cut_end; auto|].
      unfold in_range in R. destruct (TOKS (p_cur p)) as (o & raw & t & A & B & _); [lia|].
      assert (TA : tok_at E (p_cur p) t) by (exists o, raw; auto).
      destruct (le_lt_dec (tk_len t) len) as [L|L].
      + destruct (Nat.eq_dec (tk_len t) len) as [<-|NE].
        * left. do 2 eexists. apply whole_last; eauto.
        * destruct (IH (len - tk_len t) (mkPos (S (p_cur p)) (p_end p))) as [(k & q & W)|W]; [unfold size in *; cbn; lia|unfold in_range; cbn; lia| |].
          -- left. exists (S k), q. replace len with (tk_len t + (len - tk_len t)) by lia. apply whole_cons; auto; lia.
          -- right. replace len with (tk_len t + (len - tk_len t)) by lia. apply cut_more; auto.
      + right. eapply cut_long; eauto.
  Qed.

  Lemma whole_less : forall p len n q, whole E p len n q -> len <> 0 -> p_cur p < p_cur q.
  Proof.
    intros p len n q H. induction H as [p|p t len n q A B C D IH|p t A B C]; intros NZ; [congruence| |cbn; lia].
    specialize (IH C). cbn in IH. lia.
  Qed.

  (** ** One expression, given the ones it calls *)
  Section Step.
    Variable w m : nat.
    Hypothesis IH : forall rd e p h, is_rule g e = true -> good_rd rd (c_need (get e)) -> safe_for rd e -> good_h h -> in_range p ->
      size p < w \/ (size p <= w /\ weight e (r_args rd) < m) -> runs rd e p h.

    Lemma call_in : forall rd i b p h, good_rd rd (c_need i) -> (r_pred rd = true -> c_safe i = true) -> inside g c i b = true ->
      good_h h -> in_range p -> size p < w \/ (size p <= w /\ weight b (r_args rd) < m) -> runs rd b p h.
    Proof.
      intros rd i b p h (A & B & C) D I G R SZ. unfold inside in I. split_andb. apply IH; auto.
      - split; auto. split; auto. intros v V. apply C. apply inclb_incl in H1. auto.
      - intros P. apply D in P. eapply implb_use; eauto.
    Qed.

    Lemma call_pred : forall rd i b p h, good_rd rd (c_need i) -> pred_inside g c i b = true ->
      good_h h -> in_range p -> size p < w \/ (size p <= w /\ weight b (r_args rd) < m) -> runs (pred_of rd) b p h.
    Proof.
      intros rd i b p h (A & B & C) I G R SZ. unfold pred_inside in I. split_andb. apply IH; auto.
      - split; auto. split; auto. cbn [pred_of r_args]. intros v V. apply C. apply inclb_incl in H1. auto.
      - intros P. exact H0.
    Qed.

    Lemma good_prev : forall h t, good_h h -> good_h (mkRg t (h_repl h)).
    Proof. intros h t H i Q. exact (H i Q). Qed.

    Lemma first_ok : forall rd i l p h, good_rd rd (c_need i) -> (r_pred rd = true -> c_safe i = true) ->
      forallb (inside g c i) l = true -> good_h h -> in_range p ->
      (forall b, In b l -> size p < w \/ (size p <= w /\ weight b (r_args rd) < m)) ->
      exists r h', first_of E rd l p h r h' /\ good_h h'
        /\ match r with Some x => exists b, In b l /\ outcome_ok (get b) p (Some x) | None => forall b, In b l -> c_total (get b) = false end.
    Proof.
      intros rd i l. induction l as [|b l IHl]; intros p h GR SF IN GH R W; [exists None, h; split; [constructor|]; split; [exact GH|intros b []]|].
      cbn [forallb] in IN. split_andb.
      destruct (call_in rd i b p h GR SF H GH R (W b (or_introl eq_refl))) as (r & h1 & P & G1 & O). destruct r as [x|].
      - exists (Some x), h1. split; [constructor; exact P|]. split; [exact G1|]. exists b. split; [left; reflexivity|exact O].
      - destruct (IHl p h1 GR SF H0 G1 R (fun b' I => W b' (or_intror I))) as (r & h2 & P2 & G2 & O2).
        exists r, h2. split; [econstructor; eauto|]. split; [exact G2|]. destruct r as [x|].
        + destruct O2 as (b' & I & O2). exists b'. split; [right; exact I|exact O2].
        + intros b' [<-|I]; [exact O|auto].
    Qed.

    Lemma inw_cur : forall p q : pos, inw p q -> in_range p -> p_cur p <= p_cur q <= p_end p /\ p_end q = p_end p.
    Proof. unfold inw, in_range. intros p q A C. specialize (A (proj1 C)). lia. Qed.

    Lemma parts_ok : forall rd e l p h, good_rd rd (c_need (get e)) -> safe_for rd e ->
      forallb (inside g c (get e)) l = true -> good_h h -> in_range p -> m = weight e (r_args rd) ->
      size p < w \/ (size p <= w /\ lefts c (get e) l = true) ->
      exists n q F h', in_order E rd l p h n q F h' /\ good_h h' /\ inw p q /\ n <= length l
        /\ (nulls c (firstn n l) = false -> p_cur p < p_cur q) /\ (F = [] -> p_cur q = p_cur p) /\ shaped (sh_parts c (firstn n l)) F
        /\ (forall k, n < k -> k <= length l -> totals c (firstn k l) = false).
    Proof.
      intros rd e l. induction l as [|b l IHl]; intros p h GR SF IN GH R M W.
      { exists 0, p, [], h. split; [constructor|]. split; [exact GH|]. split; [apply inw_refl|]. split; [apply le_n|]. split; [discriminate|].
        split; [reflexivity|]. split; [reflexivity|]. intros k K1 K2. cbn in K2. lia. }
      cbn [forallb] in IN. split_andb.
      assert (WB : size p < w \/ (size p <= w /\ weight b (r_args rd) < m)).
      { destruct W as [W|[W L]]; [left; exact W|right]. split; [exact W|]. cbn [lefts] in L. split_andb. subst m. apply left_weight. exact H1. }
      destruct (call_in rd (get e) b p h GR SF H GH R WB) as (r & h1 & P & G1 & O). destruct r as [[p1 F]|].
      - destruct O as (I1 & N1 & Z1 & S1). destruct (range_inw _ _ R I1) as [R1 SZ].
        assert (W1 : size p1 < w \/ (size p1 <= w /\ lefts c (get e) l = true)).
        { destruct W as [W|[W L]]; [left; lia|]. cbn [lefts] in L. split_andb. destruct (c_null (get b)) eqn:NB; [right; split; [lia|exact H2]|].
          left. pose proof (size_less _ _ R I1 (N1 eq_refl)). lia. }
        destruct (IHl p1 h1 GR SF H0 G1 R1 M W1) as (n & q & G & h2 & P2 & G2 & I2 & L2 & N2 & Z2 & S2 & T2).
        destruct (inw_cur _ _ I1 R) as [C1 C1']. destruct (inw_cur _ _ I2 R1) as [C2 C2'].
        exists (S n), q, (F ++ G), h2. split; [econstructor; eauto|]. split; [exact G2|]. split; [eapply inw_trans; eauto|].
        split; [cbn; lia|]. split.
        { intros NL. change (c_null (get b) && nulls c (firstn n l) = false) in NL. destruct (c_null (get b)) eqn:NB.
          - cbn [andb] in NL. specialize (N2 NL). lia.
          - specialize (N1 eq_refl). lia. }
        split; [intros Q; apply app_eq_nil in Q; destruct Q as [Q1 Q2]; rewrite Z2, Z1 by auto; reflexivity|].
        split; [cbn [firstn sh_parts fold_right]; apply shaped_then; [exact S1|exact S2]|].
        intros k K1 K2. destruct k as [|k]; [lia|]. cbn in K2. change (c_total (get b) && totals c (firstn k l) = false).
        rewrite (T2 k) by lia. apply andb_false_r.
      - exists 0, p, [], h1. split; [constructor; exact P|]. split; [exact G1|]. split; [apply inw_refl|]. split; [lia|]. split; [discriminate|].
        split; [reflexivity|]. split; [reflexivity|]. intros k K1 K2. destruct k as [|k]; [lia|]. change (c_total (get b) && totals c (firstn k l) = false).
        cbn in O. rewrite O. reflexivity.
    Qed.

    Lemma greedy_ok : forall n rd i b p h, good_rd rd (c_need i) -> (r_pred rd = true -> c_safe i = true) -> inside g c i b = true ->
      c_null (get b) = false -> good_h h -> in_range p -> size p < n -> size p < w \/ (size p <= w /\ weight b (r_args rd) < m) ->
      exists q F h', greedy E rd b p h q F h' /\ good_h h' /\ inw p q /\ (F = [] -> p_cur q = p_cur p) /\ shaped (c_shape (get b)) F \/
      exists h', greedy E rd b p h p [] h' /\ good_h h'.
    Proof.
      induction n as [|n IHn]; intros rd i b p h GR SF IN NN GH R SZ W; [lia|].
      destruct (call_in rd i b p h GR SF IN GH R W) as (r & h1 & P & G1 & O). destruct r as [[p1 F]|].
      - destruct O as (I1 & N1 & Z1 & S1). specialize (N1 NN). destruct (range_inw _ _ R I1) as [R1 _]. pose proof (size_less _ _ R I1 N1) as SL.
        assert (W1 : size p1 < w \/ (size p1 <= w /\ weight b (r_args rd) < m)) by (destruct W; [left; lia|left; lia]).
        assert (FN : F <> []) by (intros Q; apply Z1 in Q; lia).
        destruct (IHn rd i b p1 h1 GR SF IN NN G1 R1 ltac:(lia) W1) as (q & G & h2 & [(P2 & G2 & I2 & Z2 & S2)|(h3 & P2 & G2)]).
        + exists q, (F ++ G), h2. left. split; [econstructor; eauto|]. split; [exact G2|]. split; [eapply inw_trans; eauto|].
          split; [intros Q; apply app_eq_nil in Q; tauto|]. destruct F as [|t F]; [congruence|]. exact S1.
        + exists p1, (F ++ []), h3. left. split; [econstructor; eauto|]. split; [exact G2|]. split; [exact I1|].
          rewrite app_nil_r. split; [tauto|exact S1].
      - exists p, [], h1. right. exists h1. split; [constructor; exact P|exact G1].
    Qed.

    Lemma skipping_ok : forall n rd i f b sk p h, good_rd rd (c_need i) -> (r_pred rd = true -> c_safe i = true) ->
      pred_inside g c i f = true -> inside g c i b = true -> good_h h -> in_range p -> size p < n ->
      (size p < w \/ (size p <= w /\ weight f (r_args rd) < m)) -> (size p < w \/ (size p <= w /\ weight b (r_args rd) < m)) ->
      exists r h', skipping E rd f b sk p h r h' /\ good_h h'
        /\ match r with
           | Some (q, F) => inw p q /\ (c_null (get b) = false -> p_cur p < p_cur q)
               /\ (F = [] -> p_cur q = p_cur p) /\ (sk = [] -> shaped (c_shape (get b)) F \/ shaped sh_node F) /\ (sk <> [] -> shaped sh_node F)
           | None => True
           end.
    Proof.
      induction n as [|n IHn]; intros rd i f b sk p h GR SF PF IB GH R SZ WF WB; [lia|].
      destruct (call_pred rd i f p h GR PF GH R WF) as (r & h1 & P & G1 & _).
      assert (NEXT : forall h2, good_h h2 -> (forall t q r h3, eat E p t q -> skipping E rd f b (sk ++ [PTok t 1]) q h2 r h3 -> skipping E rd f b sk p h r h3) ->
        (at_end p -> skipping E rd f b sk p h None h2) ->
        exists r h', skipping E rd f b sk p h r h' /\ good_h h'
        /\ match r with
           | Some (q, F) => inw p q /\ (c_null (get b) = false -> p_cur p < p_cur q)
               /\ (F = [] -> p_cur q = p_cur p) /\ (sk = [] -> shaped (c_shape (get b)) F \/ shaped sh_node F) /\ (sk <> [] -> shaped sh_node F)
           | None => True
           end).
      { intros h2 G2 MORE STOP. destruct (eat_ok p R) as [Q|(t & q & Q)]; [exists None, h2; split; [auto|]; split; [exact G2|exact I]|].
        destruct (eat_less _ _ _ Q) as [A B]. pose proof (eat_inw E _ _ _ Q) as IQ. destruct (range_inw _ _ R IQ) as [RQ _].
        pose proof (size_less _ _ R IQ ltac:(lia)) as SL.
        assert (WF' : size q < w \/ (size q <= w /\ weight f (r_args rd) < m)) by (destruct WF; left; lia).
        assert (WB' : size q < w \/ (size q <= w /\ weight b (r_args rd) < m)) by (destruct WB; left; lia).
        destruct (IHn rd i f b (sk ++ [PTok t 1]) q h2 GR SF PF IB G2 RQ ltac:(lia) WF' WB') as (r2 & h3 & P3 & G3 & O3).
        assert (NSK : sk ++ [PTok t 1] <> []) by (intros X; apply app_eq_nil in X; destruct X; discriminate).
        exists r2, h3. split; [eapply MORE; eauto|]. split; [exact G3|]. destruct r2 as [[q2 F]|]; [|exact I].
        destruct O3 as (I3 & N3 & Z3 & _ & S3). specialize (S3 NSK). destruct (inw_cur _ _ I3 RQ) as [C _].
        split; [eapply inw_trans; eauto|]. split; [intros _; lia|]. split; [intros X; subst F; discriminate S3|]. split; auto. }
      destruct r as [x|].
      - destruct (call_in rd i b p h1 GR SF IB G1 R WB) as (r2 & h2 & P2 & G2 & O2). destruct r2 as [[q F]|].
        + destruct O2 as (I2 & N2 & Z2 & S2). eexists (Some (q, _)), h2. split; [eapply sk_found; eauto|]. split; [exact G2|].
          destruct sk as [|t sk].
          * split; [exact I2|]. split; [exact N2|]. split; [exact Z2|]. split; [auto|congruence].
          * split; [exact I2|]. split; [exact N2|]. split; [discriminate|]. split; [congruence|reflexivity].
        + apply (NEXT h2 G2).
          * intros t q r h3 Q S3. eapply sk_no_body; eauto.
          * intros Q. eapply sk_end_no_body; eauto.
      - apply (NEXT h1 G1).
        + intros t q r h3 Q S3. eapply sk_no_first; eauto.
        + intros Q. eapply sk_end_no_first; eauto.
    Qed.
    Section Operators.
      Variable rd : reader.
      Variable e : nat.
      Variable t : pratt_table.
      Hypothesis RULE : rule E e (EPratt t).
      Hypothesis GR : good_rd rd (c_need (get e)).
      Hypothesis SF : safe_for rd e.
      Hypothesis MW : m = weight e (r_args rd).

      Lemma pratt_facts :
        (forall b, In b (pt_atoms t) -> inside g c (get e) b = true /\ at_left c (get e) b = true /\ like c (get e) b = true)
        /\ (forall x, In x (pt_prefixes t) -> is_type g (px_ty x) = true /\ inside g c (get e) (px_op x) = true
              /\ at_left c (get e) (px_op x) = true /\ c_null (get (px_op x)) = false /\ sh_fresh (c_shape (get e)) = true)
        /\ (forall x, In x (pt_infixes t) -> is_type g (ix_ty x) = true /\ inside g c (get e) (ix_op x) = true
              /\ at_left c (get e) (ix_op x) = true /\ c_null (get (ix_op x)) = false)
        /\ (pt_infixes t <> [] -> r_pred rd = false /\ sh_stale (c_shape (get e)) = true
              /\ forall b, In b (pt_atoms t) -> sh_le (c_shape (get b)) sh_node = true)
        /\ (c_total (get e) = true -> exists b, In b (pt_atoms t) /\ c_total (get b) = true).
      Proof.
        pose proof (CK _ _ RULE) as H. cbn [check_rule] in H. apply andb_true_iff in H. destruct H as [H H6]. apply andb_true_iff in H. destruct H as [H H5].
        apply andb_true_iff in H. destruct H as [H H4]. apply andb_true_iff in H. destruct H as [H H3]. apply andb_true_iff in H. destruct H as [H1 H2].
        rewrite forallb_forall in H1, H2, H4. split; [|split; [|split; [|split]]].
        - intros b B. apply H1 in B. split_andb. auto.
        - intros x X. assert (SH : sh_fresh (c_shape (get e)) = true) by (destruct (pt_prefixes t); [destruct X|exact H3]).
          apply H2 in X. split_andb. apply negb_true_iff in H0. auto.
        - intros x X. apply H4 in X. split_andb. apply negb_true_iff in H0. auto.
        - intros NE. destruct (pt_infixes t); [congruence|]. cbn [emptyb orb] in H5. split_andb. apply negb_true_iff in H. rewrite forallb_forall in H0.
          split; [|auto]. destruct (r_pred rd) eqn:P; [|reflexivity]. apply SF in P. congruence.
        - intros T. apply (implb_use _ _ H6) in T. apply existsb_exists in T. exact T.
      Qed.

      (** [lhs] can be extended by an operator, if there are any. *)
      Definition ready (fresh : bool) (lhs : list ptree) : Prop := pt_infixes t <> [] -> operand rd fresh lhs.

      Definition climbs (n : nat) : Prop := forall mp p h, good_h h -> in_range p -> size p < n -> size p <= w ->
        exists r h', climbing E rd t mp p h r h' /\ good_h h' /\ outcome_ok (get e) p r.

      Lemma op_runs : forall op p h, inside g c (get e) op = true -> at_left c (get e) op = true -> good_h h -> in_range p -> size p <= w -> runs rd op p h.
      Proof.
        intros op p h A B G R L. eapply call_in; eauto. right. split; [exact L|]. rewrite MW. apply left_weight. exact B.
      Qed.

      Lemma prefixed_ok : forall n, climbs n -> forall l p h, incl l (pt_prefixes t) -> good_h h -> in_range p -> size p <= n -> size p <= w ->
        exists r h', prefixed E rd t l p h r h' /\ good_h h'
          /\ match r with Some (q, F) => inw p q /\ p_cur p < p_cur q /\ sh_fresh (c_shape (get e)) = true /\ exists ty G, F = [PNode ty [] G] | None => True end.
      Proof.
        intros n CL l. destruct pratt_facts as (_ & PX & _). induction l as [|x l IHl]; intros p h IN G R SN SW.
        { exists None, h. split; [constructor|auto]. }
        destruct (PX x (IN x (or_introl eq_refl))) as (TY & IO & AL & NN & SH). destruct (is_type_ok _ TY) as (ty & TYP).
        assert (IN' : incl l (pt_prefixes t)) by (intros y Y; apply IN; right; exact Y).
        destruct (op_runs (px_op x) p h IO AL G R SW) as (r & h1 & P & G1 & O). destruct r as [[p1 F]|].
        - destruct O as (I1 & N1 & _). specialize (N1 NN). destruct (range_inw _ _ R I1) as [R1 _]. pose proof (size_less _ _ R I1 N1) as SL.
          destruct (CL (px_prio x) p1 h1 G1 R1 ltac:(lia) ltac:(lia)) as (r & h2 & P2 & G2 & O2). destruct r as [[q F2]|].
          + destruct O2 as (I2 & _). eexists (Some (q, _)), _. split; [eapply px_here; eauto|]. split; [apply good_prev; exact G2|].
            destruct (inw_cur _ _ I2 R1) as [C2 _]. split; [eapply inw_trans; eauto|]. split; [lia|]. split; [exact SH|]. eauto.
          + destruct (IHl p h2 IN' G2 R SN SW) as (r & h3 & P3 & G3 & O3). exists r, h3. split; [eapply px_no_operand; eauto|auto].
        - destruct (IHl p h1 IN' G1 R SN SW) as (r & h3 & P3 & G3 & O3). exists r, h3. split; [eapply px_later; eauto|auto].
      Qed.

      Lemma infixed_ok : forall n, climbs n -> forall l fresh lhs p h, incl l (pt_infixes t) -> ready fresh lhs -> good_h h -> in_range p -> size p <= n -> size p <= w ->
        exists r h', infixed E rd t l fresh lhs p h r h' /\ good_h h'
          /\ match r with Some (q, F) => inw p q /\ p_cur p < p_cur q /\ pt_infixes t <> [] /\ exists ty x pre G, F = [PNode ty (x :: pre) G] | None => True end.
      Proof.
        intros n CL l. destruct pratt_facts as (_ & _ & IX & _). induction l as [|x l IHl]; intros fresh lhs p h IN RE G R SN SW.
        { exists None, h. split; [constructor|auto]. }
        assert (IX0 : In x (pt_infixes t)) by (apply IN; left; reflexivity).
        assert (NE : pt_infixes t <> []) by (intros Q; rewrite Q in IX0; destruct IX0).
        destruct (IX x IX0) as (TY & IO & AL & NN). destruct (is_type_ok _ TY) as (ty & TYP).
        assert (IN' : incl l (pt_infixes t)) by (intros y Y; apply IN; right; exact Y).
        pose proof (RE NE) as OP. assert (LH : exists y pre, lhs = y :: pre) by (destruct OP as (_ & ty1 & pre & b & r & -> & _); eauto).
        destruct (op_runs (ix_op x) p h IO AL G R SW) as (r & h1 & P & G1 & O). destruct r as [[p1 F]|].
        - destruct O as (I1 & N1 & _). specialize (N1 NN). destruct (range_inw _ _ R I1) as [R1 _]. pose proof (size_less _ _ R I1 N1) as SL.
          destruct LH as (y & pre & LH). destruct (ix_rhs x) eqn:RH.
          + destruct (CL (S (ix_prio x)) p1 h1 G1 R1 ltac:(lia) ltac:(lia)) as (r & h2 & P2 & G2 & O2). destruct r as [[q F2]|].
            * destruct O2 as (I2 & _). eexists (Some (q, _)), _. split; [eapply ix_binary; eauto|]. split; [apply good_prev; exact G2|].
              destruct (inw_cur _ _ I2 R1) as [C2 _]. split; [eapply inw_trans; eauto|]. split; [lia|]. split; [exact NE|]. subst lhs. eauto 6.
            * eexists (Some (p1, _)), _. split; [eapply ix_no_rhs; eauto|]. split; [apply good_prev; exact G2|].
              split; [exact I1|]. split; [exact N1|]. split; [exact NE|]. subst lhs. eauto 6.
          + eexists (Some (p1, _)), _. split; [eapply ix_postfix; eauto|]. split; [apply good_prev; exact G1|].
            split; [exact I1|]. split; [exact N1|]. split; [exact NE|]. subst lhs. eauto 6.
        - destruct (IHl fresh lhs p h1 IN' RE G1 R SN SW) as (r & h3 & P3 & G3 & O3). exists r, h3. split; [eapply ix_later; eauto|auto].
      Qed.

      Lemma chain_ok : forall n, climbs n -> forall k mp fresh lhs p h, ready fresh lhs -> good_h h -> in_range p -> size p < k -> size p <= n -> size p <= w ->
        exists q F h', chain E rd t mp fresh lhs p h (q, F) h' /\ good_h h' /\ inw p q
          /\ ((q = p /\ F = lhs) \/ (p_cur p < p_cur q /\ pt_infixes t <> [] /\ exists ty x pre G, F = [PNode ty (x :: pre) G])).
      Proof.
        intros n CL k. induction k as [|k IHk]; intros mp fresh lhs p h RE G R SK SN SW; [lia|].
        assert (IN : incl (infixes t mp) (pt_infixes t)) by (intros x X; unfold infixes in X; apply filter_In in X; tauto).
        destruct (infixed_ok n CL (infixes t mp) fresh lhs p h IN RE G R SN SW) as (r & h1 & P & G1 & O). destruct r as [[p1 F]|].
        - destruct O as (I1 & N1 & NE & ty & x & pre & B & ->). destruct (range_inw _ _ R I1) as [R1 _]. pose proof (size_less _ _ R I1 N1) as SL.
          assert (RE1 : ready false [PNode ty (x :: pre) B]).
          { intros _. split; [apply pratt_facts; exact NE|]. do 4 eexists. split; [reflexivity|discriminate]. }
          destruct (IHk mp false _ p1 h1 RE1 G1 R1 ltac:(lia) ltac:(lia) ltac:(lia)) as (q & F2 & h2 & P2 & G2 & I2 & O2).
          destruct (inw_cur _ _ I2 R1) as [C2 _].
          exists q, F2, h2. split; [eapply ch_more; eauto|]. split; [exact G2|]. split; [eapply inw_trans; eauto|]. right.
          split; [lia|]. split; [exact NE|]. destruct O2 as [(_ & ->)|(_ & _ & O2)]; eauto.
        - exists p, lhs, h1. split; [constructor; exact P|]. split; [exact G1|]. split; [apply inw_refl|]. auto.
      Qed.

      Lemma climbing_ok : forall n, climbs n.
      Proof.
        induction n as [|n IHn]; intros mp p h G R SN SW; [lia|].
        destruct pratt_facts as (AT & PX & IX & IF & TT).
        assert (INS : forallb (inside g c (get e)) (pt_atoms t) = true) by (apply forallb_forall; intros b B; apply AT; exact B).
        assert (WA : forall b, In b (pt_atoms t) -> size p < w \/ (size p <= w /\ weight b (r_args rd) < m)).
        { intros b B. right. split; [exact SW|]. rewrite MW. apply left_weight. apply AT. exact B. }
        destruct (first_ok rd (get e) (pt_atoms t) p h GR SF INS G R WA) as (r & h1 & P & G1 & O). destruct r as [[p1 F]|].
        - destruct O as (b & B & I1 & N1 & Z1 & S1). destruct (AT b B) as (_ & _ & LK). unfold like in LK. split_andb.
          destruct (range_inw _ _ R I1) as [R1 SZ].
          assert (RE : ready true F).
          { intros NE. destruct (IF NE) as (P0 & _ & SN1). split; [exact P0|]. pose proof (shaped_le _ _ _ (SN1 b B) S1) as Q.
            destruct F as [|[ty [|x pre] body|ty k|k body] F]; try discriminate Q. do 4 eexists. split; reflexivity. }
          destruct (chain_ok n IHn (S (size p1)) mp true F p1 h1 RE G1 R1 ltac:(lia) ltac:(lia) ltac:(lia)) as (q & F2 & h2 & P2 & G2 & I2 & O2).
          destruct (inw_cur _ _ I1 R) as [C1 _]. destruct (inw_cur _ _ I2 R1) as [C2 _].
          exists (Some (q, F2)), h2. split; [eapply cl_atom; eauto|]. split; [exact G2|]. split; [eapply inw_trans; eauto|].
          split.
          { intros NU. assert (NB : c_null (get b) = false) by (eapply implb_not; eauto). specialize (N1 NB). lia. }
          destruct O2 as [(-> & ->)|(N2 & NE & ty & x & pre & B2 & ->)].
          + split; [exact Z1|]. eapply shaped_le; eauto.
          + split; [discriminate|]. exact (proj1 (proj2 (IF NE))).
        - destruct (prefixed_ok n IHn (pt_prefixes t) p h1 (incl_refl _) G1 R ltac:(lia) SW) as (r & h2 & P2 & G2 & O2). destruct r as [[p1 F]|].
          + destruct O2 as (I1 & N1 & SH & ty & B & ->). destruct (range_inw _ _ R I1) as [R1 SZ].
            assert (RE : ready true [PNode ty [] B]).
            { intros NE. split; [apply IF; exact NE|]. do 4 eexists. split; reflexivity. }
            destruct (chain_ok n IHn (S (size p1)) mp true _ p1 h2 RE G2 R1 ltac:(lia) ltac:(lia) ltac:(lia)) as (q & F2 & h3 & P3 & G3 & I3 & O3).
            destruct (inw_cur _ _ I3 R1) as [C3 _].
            exists (Some (q, F2)), h3. split; [eapply cl_prefix; eauto|]. split; [exact G3|]. split; [eapply inw_trans; eauto|].
            split; [intros _; lia|]. destruct O3 as [(_ & ->)|(N3 & NE & ty3 & x & pre & B3 & ->)].
            * split; [discriminate|exact SH].
            * split; [discriminate|]. exact (proj1 (proj2 (IF NE))).
          + exists None, h2. split; [eapply cl_none; eauto|]. split; [exact G2|]. cbn. destruct (c_total (get e)) eqn:CT; [|reflexivity].
            destruct (TT eq_refl) as (b & B & TB). rewrite (O b B) in TB. discriminate.
      Qed.
    End Operators.

    (** ** Calls *)
    Lemma args_ok_bound : forall i l bound v, args_ok g c i bound l = true -> In v bound -> arg_of l v = None.
    Proof.
      intros i. induction l as [|[u e] l IHl]; intros bound v A B; [reflexivity|]. cbn [args_ok] in A. rewrite !andb_true_iff in A.
      destruct A as [[[A1 A2] A3] A4]. unfold arg_of. cbn [find fst]. destruct (u =? v) eqn:Q.
      - apply Nat.eqb_eq in Q. subst u. rewrite (in_memb _ _ B) in A2. discriminate.
      - apply (IHl (u :: bound)); [exact A4|right; exact B].
    Qed.

    Lemma good_args_set : forall a v x, good_args a -> In x (bound_to v) -> good_args (set_nth v (Some x) a).
    Proof.
      intros a v x (A & B) I. split; [rewrite set_nth_length; exact A|]. intros u y Q. destruct (Nat.eq_dec u v) as [->|NE].
      - assert (v < length a) by (rewrite <- (set_nth_length _ v (Some x) a); apply nth_error_Some; congruence).
        rewrite nth_error_set_nth_eq in Q by auto. injection Q as <-. exact I.
      - rewrite nth_error_set_nth_neq in Q by auto. eauto.
    Qed.

    Lemma binds_ok : forall i a0 l bound a, args_ok g c i bound l = true -> good_args a ->
      (forall v, ~ In v bound -> nth_error a v = nth_error a0 v) -> (forall v, In v (c_need i) -> has a0 v) ->
      exists b, binds E l a b /\ good_args b /\ forall v,
        match arg_of l v with
        | None => nth_error b v = nth_error a v
        | Some e => (exists w, rule E e (EVar w) /\ nth_error b v = nth_error a0 w /\ has b v)
                    \/ ((forall w, ~ rule E e (EVar w)) /\ nth_error b v = Some (Some e))
        end.
    Proof.
      intros i a0. induction l as [|[v e] l IHl]; intros bound a A GA SAME NEED.
      { exists a. split; [constructor|]. split; [exact GA|]. intros v. reflexivity. }
      pose proof A as A'. cbn [args_ok] in A. rewrite !andb_true_iff in A. destruct A as [[[A1 A2] A3] A4]. apply Nat.ltb_lt in A1.
      assert (LV : v < length a) by (destruct GA as [-> _]; exact A1).
      assert (SET : forall x, In x (bound_to v) ->
        exists b, binds E l (set_nth v (Some x) a) b /\ good_args b /\ nth_error b v = Some (Some x)
          /\ forall u, u <> v -> match arg_of l u with
            | None => nth_error b u = nth_error a u
            | Some e => (exists w, rule E e (EVar w) /\ nth_error b u = nth_error a0 w /\ has b u)
                        \/ ((forall w, ~ rule E e (EVar w)) /\ nth_error b u = Some (Some e))
            end).
      { intros x IX. destruct (IHl (v :: bound) (set_nth v (Some x) a) A4 (good_args_set a v x GA IX)) as (b & B & GB & D).
        - intros u NU. rewrite nth_error_set_nth_neq by (intros ->; apply NU; left; reflexivity). apply SAME. intros Q. apply NU. right. exact Q.
        - exact NEED.
        - exists b. split; [exact B|]. split; [exact GB|]. split.
          + specialize (D v). rewrite (args_ok_bound i l (v :: bound) v A4 (or_introl eq_refl)) in D. rewrite D. apply nth_error_set_nth_eq. exact LV.
          + intros u NE. specialize (D u). destruct (arg_of l u); [exact D|]. rewrite D. apply nth_error_set_nth_neq. auto. }
      destruct (nth_error (g_rules g) e) as [x|] eqn:RX; [|discriminate].
      assert (VAR : (exists w, x = EVar w) \/ (forall w, x <> EVar w)) by (destruct x; ((right; intros w0 Q; discriminate Q) || (left; eauto))).
      destruct VAR as [(w0 & ->)|NV].
      - rewrite !andb_true_iff in A3. destruct A3 as [[B1 B2] B3]. apply negb_true_iff in B1. apply memb_in in B2. apply inclb_incl in B3.
        destruct (NEED w0 B2) as (y & Y). assert (AW : nth_error a w0 = Some (Some y)).
        { rewrite SAME; [exact Y|]. intros Q. apply in_memb in Q. congruence. }
        destruct (SET y) as (b & B & GB & BV & D); [apply B3; destruct GA as [_ GA]; eauto|].
        exists b. split; [eapply bi_var; [exact RX|exact AW|exact LV|exact B]|]. split; [exact GB|]. intros u. unfold arg_of. cbn [find fst].
        destruct (v =? u) eqn:Q.
        + apply Nat.eqb_eq in Q. subst u. left. exists w0. split; [exact RX|]. split; [congruence|]. exists y. exact BV.
        + apply Nat.eqb_neq in Q. apply (D u). auto.
      - assert (IE : In e (bound_to v)) by (apply memb_in; destruct x; try exact A3; exfalso; eapply NV; reflexivity).
        destruct (SET e IE) as (b & B & GB & BV & D). exists b. split; [eapply bi_expr; [exact RX|exact NV|exact LV|exact B]|]. split; [exact GB|].
        intros u. unfold arg_of. cbn [find fst]. destruct (v =? u) eqn:Q.
        + apply Nat.eqb_eq in Q. subst u. right. split; [|exact BV]. intros w0 R. unfold rule in R. rewrite RX in R. injection R as R. eapply NV; eauto.
        + apply Nat.eqb_neq in Q. apply (D u). auto.
    Qed.

    Lemma top_lt : forall a l k n, k < n -> (forall v, In v l -> k + arg_base a v < n) -> k + top a l < n.
    Proof.
      induction l as [|x l IHl]; intros k n K H; [unfold top; cbn; lia|].
      assert (A := H x (or_introl eq_refl)). assert (B : k + top a l < n) by (apply IHl; [exact K|intros; apply H; right; auto]).
      unfold top in *. cbn [fold_right]. lia.
    Qed.

    Lemma in_dom : forall l v, In v (map fst l) -> exists e, arg_of l v = Some e.
    Proof.
      induction l as [|[u e] l IHl]; intros v H; [destruct H|]. unfold arg_of. cbn [find fst]. destruct (u =? v) eqn:Q; [eauto|].
      apply IHl. destruct H as [H|H]; [cbn in H; apply Nat.eqb_neq in Q; congruence|exact H].
    Qed.

    (** The node that injected trees go into. *)
    Lemma graft_ok : forall f F t, attached t -> match t with PNode _ _ _ => True | _ => False end ->
      exists ty x pre b, graft (f :: F) t = Some (PNode ty (x :: pre) b).
    Proof.
      intros f F. fix IHt 1. intros [ty pre b|ty n|k b] A N; [|destruct N|destruct N]. destruct pre as [|x pre].
      - exists ty, f, F, b. reflexivity.
      - apply (proj1 (attached_node _ _ _)) in A. destruct A as (A1 & (A2 & _) & _). destruct (IHt x A2) as (ty' & x' & pre' & b' & GX); [destruct x; auto|].
        cbn [graft]. rewrite GX. do 4 eexists. reflexivity.
    Qed.

    Ltac checked H := rewrite !andb_true_iff in H.

    Lemma test_ok : forall i p h, is_test i = true -> good_h h -> outcome_ok i p (Some (p, [])) /\ outcome_ok i p None.
    Proof.
      intros i p h H G. unfold is_test in H. checked H. destruct H as [[A B] C]. apply negb_true_iff in C. split; [|exact C].
      split; [apply inw_refl|]. split; [congruence|]. split; [reflexivity|exact B].
    Qed.

    Lemma pass : forall i b p r, like c i b = true -> implb (c_total i) (c_total (get b)) = true -> outcome_ok (get b) p r -> outcome_ok i p r.
    Proof.
      intros i b p r L T O. unfold like in L. checked L. destruct L as [L1 L2]. destruct r as [[q F]|].
      - destruct O as (A & B & C & D). split; [exact A|]. split; [intros N; apply B; eapply implb_not; eauto|]. split; [exact C|eapply shaped_le; eauto].
      - cbn in *. eapply implb_not; eauto.
    Qed.

    Lemma step_ok : forall rd e x p h, rule E e x -> good_rd rd (c_need (get e)) -> safe_for rd e -> good_h h -> in_range p ->
      size p <= w -> m = weight e (r_args rd) -> runs rd e p h.
    Proof.
      intros rd e x p h RULE GR SF GH R SW MW. pose proof (CK _ _ RULE) as H.
      assert (RUN : forall b, inside g c (get e) b = true -> at_left c (get e) b = true -> forall h, good_h h -> runs rd b p h).
      { intros b A B h' G. eapply call_in; eauto. right. split; [exact SW|]. rewrite MW. apply left_weight. exact B. }
      assert (PRED : forall b, pred_inside g c (get e) b = true -> at_left c (get e) b = true -> forall h, good_h h -> runs (pred_of rd) b p h).
      { intros b A B h' G. eapply call_pred; eauto. right. split; [exact SW|]. rewrite MW. apply left_weight. exact B. }
      destruct x as [ty b rp|ty b|l|l cm|ty|ty text|b|f b|b|b| | |l b|t|cx b|cx b|cx|b l|v|tys|a b|b]; cbn [check_rule] in H.
      - (* pub *)
        checked H. destruct H as [[[[[[H1 H2] H3] H4] H5] H6] H7]. destruct (is_type_ok _ H1) as (t & T).
        destruct (RUN b H2 H3 (if rp then mkRg (h_prev h) None else h)) as (r & h1 & P & G1 & O).
        { destruct rp; [intros i Q; discriminate Q|exact GH]. }
        destruct r as [[q F]|].
        + destruct O as (A & B & C & D).
          assert (FIN : forall t', outcome_ok (get e) p (Some (q, [PNode t' [] F]))).
          { intros t'. split; [exact A|]. split; [intros N; apply B; eapply implb_not; eauto|]. split; [discriminate|exact H5]. }
          destruct rp.
          * assert (NP : r_pred rd = false).
            { destruct (r_pred rd) eqn:Q; [|reflexivity]. apply SF in Q. cbn in H7. rewrite Q in H7. discriminate. }
            assert (RT : exists t', match h_repl h1 with None => t' = t | Some i => r_pred rd = false /\ type E i t' end).
            { destruct (h_repl h1) as [i|] eqn:HR; [|eauto]. destruct (G1 i HR) as (t' & T'). eauto. }
            destruct RT as (t' & RT). exists (Some (q, [PNode t' [] F])), (mkRg (Some t) None). split; [eapply peg_pub_repl; eauto|].
            split; [intros i Q; discriminate Q|apply FIN].
          * exists (Some (q, [PNode t [] F])), (mkRg (Some t) (h_repl h1)). split; [eapply peg_pub; eauto|]. split; [apply good_prev; exact G1|apply FIN].
        + exists None, h1. split; [eapply peg_pub_fail; eauto|]. split; [exact G1|]. cbn in *. eapply implb_not; eauto.
      - (* replacement *)
        checked H. destruct H as [[[[H1 H2] H3] H4] H5]. destruct (is_type_ok _ H1) as (t & T). destruct (RUN b H2 H3 h GH) as (r & h1 & P & G1 & O).
        pose proof (pass _ _ _ _ H4 H5 O) as O'. destruct r as [[q F]|].
        + exists (Some (q, F)), (mkRg (h_prev h1) (Some ty)). split; [eapply peg_replace; eauto|]. split; [|exact O'].
          intros i Q. cbn in Q. injection Q as <-. eauto.
        + exists None, h1. split; [eapply peg_replace_fail; eauto|]. split; [exact G1|exact O'].
      - (* choice *)
        checked H. destruct H as [H1 H2]. rewrite forallb_forall in H1.
        assert (H3 : forall b, In b l -> inside g c (get e) b = true /\ at_left c (get e) b = true /\ like c (get e) b = true).
        { intros b B. apply H1 in B. checked B. tauto. }
        assert (INS : forallb (inside g c (get e)) l = true) by (apply forallb_forall; intros b B; apply H3; exact B).
        assert (WA : forall b, In b l -> size p < w \/ (size p <= w /\ weight b (r_args rd) < m)).
        { intros b B. right. split; [exact SW|]. rewrite MW. apply left_weight. apply H3. exact B. }
        destruct (first_ok rd (get e) l p h GR SF INS GH R WA) as (r & h1 & P & G1 & O). exists r, h1. split; [eapply peg_or; eauto|]. split; [exact G1|].
        destruct r as [[q F]|].
        + destruct O as (b & B & A1 & A2 & A3 & A4). destruct (H3 b B) as (_ & _ & LK). unfold like in LK. checked LK. destruct LK as [L1 L2].
          split; [exact A1|]. split; [intros N; apply A2; eapply implb_not; eauto|]. split; [exact A3|eapply shaped_le; eauto].
        + cbn. destruct (c_total (get e)) eqn:CT; [|reflexivity]. cbn in H2. apply existsb_exists in H2. destruct H2 as (b & B & TB). rewrite (O b B) in TB. discriminate.
      - (* sequence *)
        cbv zeta in H. checked H. destruct H as [[[[[[H1 H2] H3] H4] H5] H6] H7]. apply Nat.leb_le in H3. rewrite forallb_forall in H7.
        set (k := match cm with Some k => k | None => length l end) in *.
        destruct (parts_ok rd e l p h GR SF H1 GH R MW (or_intror (conj SW H2))) as (n & q & F & h1 & P & G1 & A1 & LN & A2 & A3 & A4 & A5).
        assert (NUL : k <= n -> c_null (get e) = false -> p_cur p < p_cur q).
        { intros KN N. apply A2. pose proof (implb_not _ _ H4 N) as NK. unfold nulls in *. destruct (forallb (fun a => c_null (get a)) (firstn n l)) eqn:Q; [|reflexivity].
          rewrite <- NK. symmetry. apply forallb_forall. intros y Y. rewrite forallb_forall in Q. apply Q.
          replace n with (k + (n - k)) by lia. rewrite <- (firstn_skipn k (firstn (k + (n - k)) l)). apply in_or_app. left. rewrite firstn_firstn.
          replace (Nat.min k (k + (n - k))) with k by lia. exact Y. }
        destruct (le_lt_dec k n) as [KN|KN].
        + destruct (le_lt_dec (length l) n) as [LL|LL].
          * assert (n = length l) by lia. subst n. exists (Some (q, F)), h1. split.
            { eapply peg_and_all; [exact RULE| |exact P]. destruct cm; [exact H3|exact I]. }
            split; [exact G1|]. split; [exact A1|]. split; [auto|]. split; [exact A3|]. rewrite firstn_all in A4. eapply shaped_le; eauto.
          * assert (SH := H7 n (proj2 (in_seq (length l - k) k n) ltac:(lia))). destruct cm as [k'|]; [|exfalso; unfold k in KN; cbn in KN; lia]. exists (Some (q, F ++ [error_node []])), h1. split; [eapply peg_and_commit; eauto|]. split; [exact G1|].
            split; [exact A1|]. split; [auto|]. split; [intros Q; apply app_eq_nil in Q; destruct Q; discriminate|].
            eapply shaped_le; [exact SH|]. apply shaped_then; [exact A4|reflexivity].
        + exists None, h1. split; [eapply peg_and_fail; eauto|]. split; [exact G1|]. cbn. destruct (c_total (get e)) eqn:CT; [|reflexivity].
          cbn in H5. rewrite (A5 k KN H3) in H5. discriminate.
      - (* token *)
        checked H. destruct H as [[H1 H2] H3]. apply negb_true_iff in H3. destruct (is_type_ok _ H1) as (t & T). destruct (eat_ok p R) as [Q|(t' & q & Q)].
        + exists None, h. split; [eapply peg_token_end; eauto|]. split; [exact GH|exact H3].
        + destruct (Nat.eq_dec t' t) as [->|NE].
          * destruct (eat_less _ _ _ Q) as [Q1 Q2]. exists (Some (q, [PTok t 1])), h. split; [eapply peg_token; eauto|]. split; [exact GH|].
            split; [eapply eat_inw; eauto|]. split; [intros _; lia|]. split; [discriminate|exact H2].
          * exists None, h. split; [eapply peg_token_other; eauto|]. split; [exact GH|exact H3].
      - (* contextual token *)
        checked H. destruct H as [[[H1 H2] H3] H4]. apply negb_true_iff in H3. destruct (is_type_ok _ H1) as (t & T).
        destruct (Nat.eq_dec (p_cur p) (p_end p)) as [Q|Q]; [exists None, h; split; [eapply peg_ctx_end; eauto|]; split; [exact GH|exact H3]|].
        destruct (TOKS (p_cur p)) as (o & raw & tk & A & B & C); [unfold in_range in R; lia|].
        destruct (is_prefix text (skipn o (e_text E))) eqn:PF.
        + apply is_prefix_spec in PF. assert (HERE : text_here E p text) by (exists o, raw; auto).
          destruct (whole_or_not (size p) (length text) p (le_n _) R) as [(n & q & W)|W].
          * exists (Some (q, [PTok t n])), h. split; [eapply peg_ctx; eauto|]. split; [exact GH|]. split; [eapply whole_inw; eauto|].
            split; [|split; [discriminate|exact H2]]. intros N. eapply whole_less; [exact W|]. destruct text; [|discriminate]. cbn in H4. congruence.
          * exists None, h. split; [eapply peg_ctx_partial; eauto|]. split; [exact GH|exact H3].
        + exists None, h. split; [eapply peg_ctx_other; [exact RULE|exact Q|]|]; [|split; [exact GH|exact H3]].
          exists o, raw. split; [exact A|]. split; [exact C|]. intros X. apply is_prefix_spec in X. congruence.
      - (* repetition *)
        checked H. destruct H as [[[[[H1 H2] H3] H4] H5] H6]. apply negb_true_iff in H3.
        assert (WB : size p < w \/ (size p <= w /\ weight b (r_args rd) < m)) by (right; split; [exact SW|rewrite MW; apply left_weight; exact H2]).
        destruct (greedy_ok (S (size p)) rd (get e) b p h GR SF H1 H3 GH R ltac:(lia) WB) as (q & F & h1 & [(P & G1 & A & B & C)|(h2 & P & G1)]).
        + exists (Some (q, F)), h1. split; [eapply peg_rep; eauto|]. split; [exact G1|]. split; [exact A|]. split; [congruence|]. split; [exact B|eapply shaped_le; eauto].
        + exists (Some (p, [])), h2. split; [eapply peg_rep; eauto|]. split; [exact G1|]. split; [apply inw_refl|]. split; [congruence|]. split; [reflexivity|exact H5].
      - (* skipping *)
        checked H. destruct H as [[[[[[H1 H2] H3] H4] H5] H6] H7]. apply negb_true_iff in H7. unfold like in H5. checked H5. destruct H5 as [L1 L2].
        assert (WF : size p < w \/ (size p <= w /\ weight f (r_args rd) < m)) by (right; split; [exact SW|rewrite MW; apply left_weight; exact H2]).
        assert (WB : size p < w \/ (size p <= w /\ weight b (r_args rd) < m)) by (right; split; [exact SW|rewrite MW; apply left_weight; exact H4]).
        destruct (skipping_ok (S (size p)) rd (get e) f b [] p h GR SF H1 H3 GH R ltac:(lia) WF WB) as (r & h1 & P & G1 & O).
        exists r, h1. split; [eapply peg_skip; eauto|]. split; [exact G1|]. destruct r as [[q F]|]; [|exact H7].
        destruct O as (A & B & C & D & _). split; [exact A|]. split; [intros N; apply B; eapply implb_not; eauto|]. split; [exact C|].
        destruct (D eq_refl) as [D'|D']; [eapply shaped_le; eauto|]. eapply shaped_le; [|exact D']. unfold sh_le, sh_node. cbn. rewrite H6. reflexivity.
      - (* option *)
        checked H. destruct H as [[[[H1 H2] H3] H4] H5]. destruct (RUN b H1 H2 h GH) as (r & h1 & P & G1 & O). destruct r as [[q F]|].
        + destruct O as (A & B & C & D). exists (Some (q, F)), h1. split; [eapply peg_opt; eauto|]. split; [exact G1|]. split; [exact A|]. split; [congruence|].
          split; [exact C|eapply shaped_le; eauto].
        + exists (Some (p, [])), h1. split; [eapply peg_opt_none; eauto|]. split; [exact G1|]. split; [apply inw_refl|]. split; [congruence|]. split; [reflexivity|exact H4].
      - (* negation *)
        checked H. destruct H as [[H1 H2] H3]. destruct (PRED b H1 H2 h GH) as (r & h1 & P & G1 & O). destruct (test_ok _ p h H3 GH) as [T1 T2]. destruct r as [x|].
        + exists None, h1. split; [eapply peg_not_fail; eauto|]. split; [exact G1|exact T2].
        + exists (Some (p, [])), h1. split; [eapply peg_not; eauto|]. split; [exact G1|exact T1].
      - (* end *)
        destruct (test_ok _ p h H GH) as [T1 T2]. destruct (Nat.eq_dec (p_cur p) (p_end p)) as [Q|Q].
        + exists (Some (p, [])), h. split; [apply peg_eof; auto|auto].
        + exists None, h. split; [apply peg_eof_fail; auto|auto].
      - (* any token *)
        checked H. destruct H as [H1 H2]. apply negb_true_iff in H2. destruct (eat_ok p R) as [Q|(t & q & Q)].
        + exists None, h. split; [eapply peg_any_end; eauto|auto].
        + destruct (eat_less _ _ _ Q) as [Q1 Q2]. exists (Some (q, [PTok t 1])), h. split; [eapply peg_any; eauto|]. split; [exact GH|].
          split; [eapply eat_inw; eauto|]. split; [intros _; lia|]. split; [discriminate|exact H1].
      - (* layer *)
        checked H. destruct H as [[[[[[[[H1 H2] H3] H4] H5] H6] H7] H8] H9]. destruct (PRED l H1 H2 h GH) as (r & h1 & P & G1 & O). destruct r as [[cv F0]|].
        + destruct O as (A & B & _ & _). destruct (inw_cur _ _ A R) as [C1 C2].
          set (lay := mkPos (p_cur p) (p_cur cv)). assert (RL : in_range lay) by (unfold in_range, lay in *; cbn; lia).
          assert (SL : size lay <= w) by (unfold size, lay in *; cbn; lia).
          destruct (call_in rd (get e) b lay h1 GR SF H3 G1 RL) as (r & h2 & P2 & G2 & O2).
          { right. split; [exact SL|]. rewrite MW. apply left_weight. exact H4. }
          set (left_ := match r with Some (q, _) => q | None => lay end). set (F := match r with Some (_, F) => F | None => [] end).
          assert (IL : inw lay left_) by (destruct r as [[q G]|]; [apply O2|apply inw_refl]). destruct (range_inw _ _ RL IL) as [RL' _]. destruct (inw_cur _ _ IL RL) as [D1 D2].
          destruct (eats_ok (size left_) left_ (le_n _) RL') as (T & ET).
          exists (Some (cv, match T with [] => F | _ => F ++ [error_node T] end)), h2. split.
          { eapply peg_layer with (left_ := left_); eauto. destruct r as [[q G]|]; [reflexivity|split; reflexivity]. }
          split; [exact G2|]. split; [exact A|]. split; [intros N; apply B; eapply implb_not; eauto|].
          assert (SF' : shaped (c_shape (get e)) F) by (destruct r as [[q G]|]; [eapply shaped_le; [exact H6|apply O2]|exact H7]).
          destruct T as [|t0 T].
          * split; [|exact SF']. intros Q. assert (LL : p_cur left_ = p_cur p) by (destruct r as [[q G]|]; [apply O2; exact Q|reflexivity]).
            inversion ET as [? AE|]; subst. unfold at_end in AE. rewrite D2 in AE. cbn in AE. lia.
          * split; [intros Q; apply app_eq_nil in Q; destruct Q; discriminate|]. destruct F as [|u F]; [exact H8|exact SF'].
        + exists None, h1. split; [eapply peg_layer_none; eauto|]. split; [exact G1|]. cbn in *. eapply implb_not; eauto.
      - (* operators *)
        destruct (climbing_ok rd e t RULE GR SF MW (S (size p)) 0 p h GH R ltac:(lia) SW) as (r & h1 & P & G1 & O).
        exists r, h1. split; [eapply peg_pratt; eauto|auto].
      - (* enter *)
        checked H. destruct H as [[[[H1 H2] H3] H4] H5]. apply Nat.ltb_lt in H1. destruct GR as (GC & GA & GN).
        destruct (call_in (with_ctx rd cx true) (get e) b p h) as (r & h1 & P & G1 & O); auto.
        { split; [cbn; rewrite set_nth_length; exact GC|auto]. }
        { right. split; [exact SW|]. rewrite MW. apply left_weight. exact H3. }
        exists r, h1. split; [eapply peg_enter; eauto; lia|]. split; [exact G1|]. eapply pass; eauto.
      - (* exit *)
        checked H. destruct H as [[[[H1 H2] H3] H4] H5]. apply Nat.ltb_lt in H1. destruct GR as (GC & GA & GN).
        destruct (call_in (with_ctx rd cx false) (get e) b p h) as (r & h1 & P & G1 & O); auto.
        { split; [cbn; rewrite set_nth_length; exact GC|auto]. }
        { right. split; [exact SW|]. rewrite MW. apply left_weight. exact H3. }
        exists r, h1. split; [eapply peg_exit; eauto; lia|]. split; [exact G1|]. eapply pass; eauto.
      - (* inside a context *)
        checked H. destruct H as [H1 H2]. apply Nat.ltb_lt in H1. destruct (test_ok _ p h H2 GH) as [T1 T2]. destruct GR as (GC & _).
        destruct (nth_error (r_ctxs rd) cx) as [[]|] eqn:Q; [| |apply nth_error_None in Q; lia].
        + exists (Some (p, [])), h. split; [eapply peg_in; eauto|auto].
        + exists None, h. split; [eapply peg_not_in; eauto|auto].
      - (* call *)
        checked H. destruct H as [[[[[[[H1 H2] H3] H4] H5] H6] H7] H8]. apply inclb_incl in H6. apply Nat.ltb_lt in H7. rewrite forallb_forall in H8.
        destruct GR as (GC & GA & GN).
        destruct (binds_ok (get e) (r_args rd) l [] (r_args rd) H5 GA (fun _ _ => eq_refl) GN) as (a & B & GB & D).
        destruct (IH (with_args rd a) b p h) as (r & h1 & P & G1 & O); auto.
        { split; [exact GC|]. split; [exact GB|]. intros v V. cbn [with_args r_args]. specialize (D v). destruct (arg_of l v) as [y|] eqn:AV.
          - destruct D as [(u & _ & _ & D)|(_ & D)]; [exact D|exists y; exact D].
          - apply H6 in V. apply in_app_or in V. destruct V as [V|V].
            + apply in_dom in V. destruct V as (y & V). congruence.
            + destruct (GN v V) as (y & Y). exists y. congruence. }
        { intros Q. apply SF in Q. eapply implb_use; eauto. }
        { right. split; [exact SW|]. rewrite MW. unfold weight at 1. cbn [with_args r_args]. apply top_lt; [unfold weight; lia|].
          intros v V. pose proof (H8 v V) as CL. unfold call_left in CL. specialize (D v). unfold arg_base. destruct (arg_of l v) as [y|].
          - destruct D as [(u & RU & D & _)|(NV & D)].
            + unfold rule in RU. rewrite RU in CL. apply memb_in in CL. rewrite D. apply (top_in (r_args rd)) in CL. unfold weight, arg_base in *. lia.
            + rewrite D. unfold rule in NV. destruct (nth_error (g_rules g) y) as [[]|]; try (apply Nat.ltb_lt in CL; unfold weight; lia).
              exfalso. eapply NV. reflexivity.
          - rewrite D. apply memb_in in CL. apply (top_in (r_args rd)) in CL. unfold weight, arg_base in *. lia. }
        exists r, h1. split; [eapply peg_call; eauto|]. split; [exact G1|]. eapply pass; eauto.
      - (* parameter *)
        checked H. destruct H as [[[H1 H2] H3] H4]. apply memb_in in H1, H2. apply Nat.ltb_lt in H3. rewrite forallb_forall in H4.
        destruct GR as (GC & GA & GN). destruct (GN v H1) as (y & Y). pose proof (proj2 GA v y Y) as IY. destruct (ARGS v y IY) as (A1 & A2 & A3).
        pose proof (H4 y IY) as H5. checked H5. destruct H5 as [[L1 L2] L3].
        destruct (IH rd y p h) as (r & h1 & P & G1 & O); auto.
        { split; [exact GC|]. split; [exact GA|]. rewrite A2. intros u []. }
        { intros Q. apply SF in Q. eapply implb_use; eauto. }
        { right. split; [exact SW|]. rewrite MW. unfold weight. rewrite A3. apply (top_in (r_args rd)) in H2. unfold arg_base in H2. rewrite Y in H2. unfold top at 1. cbn [fold_right]. lia. }
        exists r, h1. split; [eapply peg_var; eauto|]. split; [exact G1|]. eapply pass; eauto.
      - (* previous node *)
        checked H. destruct H as [H1 H2]. destruct (test_ok _ p h H2 GH) as [T1 T2]. destruct (h_prev h) as [t|] eqn:HP.
        + assert (AM : exists bb, among E tys t bb).
          { clear - H1. induction tys as [|i tys IHt]; [exists false; constructor|]. cbn [forallb] in H1. apply andb_true_iff in H1. destruct H1 as [A B].
            apply Nat.ltb_lt in A. destruct (nth_error (g_types g) i) as [x|] eqn:Q; [|apply nth_error_None in Q; lia].
            destruct (Nat.eq_dec x t) as [->|NE]; [exists true; apply among_here; exact Q|]. destruct (IHt B) as (bb & AM). exists bb. eapply among_later; eauto. }
          destruct AM as ([] & AM).
          * exists (Some (p, [])), h. split; [eapply peg_prev; eauto|auto].
          * exists None, h. split; [eapply peg_prev_other; eauto|auto].
        + exists None, h. split; [eapply peg_prev_none; eauto|auto].
      - (* injection *)
        checked H. destruct H as [[[[[[[[[[H1 H2] H3] H4] H5] H6] H7] H8] H9] H10] H11]. apply negb_true_iff in H6.
        assert (NP : r_pred rd = false) by (destruct (r_pred rd) eqn:Q; [apply SF in Q; congruence|reflexivity]).
        destruct (RUN a H1 H2 h GH) as (r & h1 & P & G1 & O). destruct r as [[q F]|].
        2:{ exists None, h1. split; [eapply peg_inject_no_pre; eauto|]. split; [exact G1|]. cbn in *. destruct (c_total (get e)); [|reflexivity]. cbn in H11. rewrite O in H11. discriminate. }
        destruct O as (A1 & A2 & A3 & A4). destruct (range_inw _ _ R A1) as [RQ SQ]. destruct (inw_cur _ _ A1 R) as [C1 C2].
        destruct (call_in rd (get e) b q h1 GR SF H3 G1 RQ) as (r & h2 & P2 & G2 & O2).
        { destruct (c_null (get a)) eqn:NA.
          - right. split; [lia|]. rewrite MW. apply left_weight. exact H4.
          - left. pose proof (size_less _ _ R A1 (A2 eq_refl)). lia. }
        destruct r as [[q2 G]|].
        2:{ exists None, h2. split; [eapply peg_inject_no_body; eauto|]. split; [exact G2|]. cbn in *. destruct (c_total (get e)); [|reflexivity]. cbn in H11. rewrite O2, andb_false_r in H11. discriminate. }
        destruct O2 as (B1 & B2 & B3 & B4). destruct (inw_cur _ _ B1 RQ) as [D1 D2].
        assert (NUL : c_null (get e) = false -> p_cur p < p_cur q2).
        { intros N. pose proof (implb_not _ _ H5 N) as NN. apply andb_false_iff in NN. destruct NN as [NN|NN]; [specialize (A2 NN); lia|specialize (B2 NN); lia]. }
        destruct (Nat.eq_dec (p_cur q) (p_cur p)) as [Q|Q].
        + assert (q = p) by (destruct q, p; cbn in *; subst; reflexivity). subst q.
          exists (Some (q2, F ++ G)), h2. split; [eapply peg_inject_empty; eauto|]. split; [exact G2|]. split; [exact B1|]. split; [exact NUL|].
          split; [intros X; apply app_eq_nil in X; apply B3; tauto|]. eapply shaped_le; [exact H10|]. apply shaped_then; auto.
        + pose proof (shaped_le _ _ _ H7 A4) as SA. pose proof (shaped_le _ _ _ H8 B4) as SB.
          destruct F as [|[ty1 [|x1 pre1] b1|ty1 n1|k1 b1] F]; try discriminate SA; [exfalso; apply Q; apply A3; reflexivity|].
          destruct G as [|t0 G]; [discriminate SB|].
          assert (AT : all_attached (t0 :: G)) by (exact (proj1 (peg_attached_all E) _ _ _ _ _ _ P2)).
          destruct (graft_ok (PNode ty1 [] b1) F t0 (proj1 AT)) as (ty2 & x2 & pre2 & b2 & GT); [destruct t0 as [ty0 [|x0 pre0] b0|ty0 n0|k0 b0]; [exact I|exact I|discriminate SB|discriminate SB]|].
          exists (Some (q2, PNode ty2 (x2 :: pre2) b2 :: G)), h2. split.
          { eapply peg_inject with (q := q); [exact RULE|exact P|intros ->; apply Q; reflexivity|exact P2| |].
            - split; [exact NP|]. do 4 eexists. split; [reflexivity|]. reflexivity.
            - cbn [grafts]. rewrite GT. reflexivity. }
          split; [exact G2|]. split; [eapply inw_trans; eauto|]. split; [exact NUL|]. split; [discriminate|]. exact H9.
      - (* cached *)
        checked H. destruct H as [[[[H1 H2] H3] H4] H5]. destruct (RUN b H1 H2 h GH) as (r & h1 & P & G1 & O). destruct r as [[q F]|].
        + destruct O as (A & B & C & D). exists (Some (q, [PCached b F])), h1. split; [eapply peg_cached; eauto|]. split; [exact G1|].
          split; [exact A|]. split; [intros N; apply B; eapply implb_not; eauto|]. split; [discriminate|exact H4].
        + exists None, h1. split; [eapply peg_cached_fail; eauto|]. split; [exact G1|]. cbn in *. eapply implb_not; eauto.
    Qed.
  End Step.

  (** Every expression has an outcome everywhere. *)
  Lemma runs_all : forall w m rd e p h, is_rule g e = true -> good_rd rd (c_need (get e)) -> safe_for rd e -> good_h h -> in_range p ->
    size p <= w -> weight e (r_args rd) <= m -> runs rd e p h.
  Proof.
    induction w as [w IHw] using lt_wf_ind. induction m as [m IHm] using lt_wf_ind. intros rd e p h RU GR SF GH R SW WM.
    destruct (is_rule_ok _ RU) as (x & RX).
    apply (step_ok w (weight e (r_args rd))) with (x := x); auto.
    intros rd' e' p' h' RU' GR' SF' GH' R' [L|[L1 L2]].
    - apply (IHw (size p') L (weight e' (r_args rd'))); auto.
    - apply (IHm (weight e' (r_args rd')) ltac:(lia)); auto.
  Qed.
End Sound.

(** * Whole files *)
Section Files.
  Variable g : grammar.
  Variable c : cert.
  Variable is_ws : nat -> bool.
  Variable txt : bytes.
  Variable toks : list token.
  Hypothesis LEN : lens toks = length txt.
  Let E := new_env None g is_ws txt toks.

  Lemma runnable_rules : runnable g c = true -> forall e x, rule E e x -> check_rule g c (get c e) x = true.
  Proof.
    intros H e x R. unfold runnable in H. rewrite !andb_true_iff in H. destruct H as [[H1 _] H2]. apply Nat.eqb_eq in H1. rewrite forallb_forall in H2.
    unfold rule in R. cbn in R. assert (LT : e < length (k_info c)) by (rewrite H1; apply nth_error_Some; congruence).
    apply (H2 (get c e, x)). unfold get. revert LT R. clear. revert e. generalize (g_rules g). induction (k_info c) as [|i l IH]; intros rs e LT R; [cbn in LT; lia|].
    destruct rs as [|y rs]; [destruct e; discriminate|]. destruct e as [|e]; cbn in *; [injection R as ->; left; reflexivity|].
    right. apply IH; [lia|exact R].
  Qed.

  Lemma runnable_args : runnable g c = true -> forall v x, In x (bound_to c v) ->
    is_rule g x = true /\ c_need (get c x) = [] /\ c_left (get c x) = [].
  Proof.
    intros H v x I. unfold runnable in H. rewrite !andb_true_iff in H. destruct H as [[_ H] _]. rewrite forallb_forall in H.
    unfold bound_to in I. destruct (nth_in_or_default v (k_args c) []) as [J|J]; [|rewrite J in I; destruct I].
    apply H in J. rewrite forallb_forall in J. apply J in I. unfold closed_arg in I. rewrite !andb_true_iff in I. destruct I as [[A B] D].
    apply emptyb_nil in B, D. auto.
  Qed.

  Lemma env_tokens : forall k, k < length (e_idx E) -> exists o raw t,
    nth_error (e_idx E) k = Some (o, raw) /\ nth_error (e_toks E) raw = Some t /\ o <= length (e_text E).
  Proof.
    intros k K. destruct (nth_error (e_idx E) k) as [[o raw]|] eqn:Q; [|apply nth_error_None in Q; lia].
    destruct (idx_split E is_ws eq_refl LEN k o raw Q) as (a & t & b & T & -> & -> & _). exists (lens a), (length a), t. split; [reflexivity|].
    split; [rewrite T; rewrite nth_error_app2 by lia; rewrite Nat.sub_diag; reflexivity|]. cbn in *. rewrite T in LEN. rewrite lens_app in LEN. lia.
  Qed.

  (** The start rule has an outcome, and it fails only if it may. *)
  Lemma start_runs : runnable g c = true -> has_start g c = true ->
    (exists t, peg_file E t)
    \/ (c_total (get c 0) = false
        /\ exists h, peg E (mkRd false (repeat false 16) (repeat None 16)) 0 (new_pos E) (mkRg None None) None h).
  Proof.
    intros RB HS. unfold has_start in HS. destruct (g_rules g) as [|x rules] eqn:RS; [discriminate|].
    destruct x as [ty body [|]| | | | | | | | | | | | | | | | | | | | |]; try discriminate.
    assert (R0 : rule E 0 (EPub ty body false)) by (unfold rule; cbn; rewrite RS; reflexivity).
    apply emptyb_nil in HS.
    assert (RANGE : in_range E (new_pos E)) by (unfold in_range, new_pos; cbn; lia).
    set (rd := mkRd false (repeat false 16) (repeat None 16)).
    destruct (runs_all E c (runnable_rules RB) (runnable_args RB) env_tokens (size (new_pos E)) (weight c 0 (r_args rd)) rd 0 (new_pos E) (mkRg None None))
      as (r & h & P & _ & O).
    - unfold is_rule. cbn. rewrite RS. reflexivity.
    - split; [reflexivity|]. split.
      + split; [reflexivity|]. cbn [rd r_args]. intros v x Q. apply nth_error_In in Q. apply repeat_spec in Q. discriminate.
      + rewrite HS. intros v [].
    - intros Q. discriminate Q.
    - intros i Q. discriminate Q.
    - exact RANGE.
    - apply le_n.
    - apply le_n.
    - destruct r as [[q F]|]; [left|right; split; [exact O|exists h; exact P]]. destruct O as (A & _). destruct (range_inw E _ _ RANGE A) as [RQ _].
      assert (NODE : exists t G, F = [PNode t [] G]).
      { assert (U : forall x, rule E 0 x -> x = EPub ty body false) by (intros x X; unfold rule in X, R0; congruence). clear - P U.
        inversion P; subst; match goal with X : rule _ 0 _ |- _ => apply U in X; try discriminate X end. do 2 eexists; reflexivity. }
      destruct NODE as (t & G & ->). destruct (Nat.eq_dec (p_cur q) (p_end q)) as [Q|Q].
      + exists (PNode t [] G). eapply pf_all; [exact P|exact Q].
      + destruct (eats_ok E env_tokens (size q) q (le_n _) RQ) as (T & ET). eexists. eapply pf_rest; [exact P|exact Q|exact ET].
  Qed.

  Lemma well_formed_tree : well_formed g c = true -> exists t, peg_file E t.
  Proof.
    intros H. unfold well_formed in H. rewrite !andb_true_iff in H. destruct H as [[A B] C]. destruct (start_runs A B) as [H|(H & _)]; [exact H|congruence].
  Qed.
End Files.
