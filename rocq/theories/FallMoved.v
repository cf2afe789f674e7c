(** A rule of fall that was parsed without errors is parsed the same wherever its tokens appear. *)
From Coq Require Import List Arith Bool Lia.
From Verif Require Import Base BaseFacts LexModel LexSpec LexProofs GrammarModel GrammarData ParserModel ForestSpec SemSpec PegSpec PegProofs RefineProofs WellFormed PegFacts OccurProofs CheckProofs InsideProofs FallCached.
Import ListNotations.

(** ** The rules below a rule of fall *)
Definition below (l : list (nat * nat)) (e : nat) : bool := existsb (fun r => (fst r <=? e) && (e <=? snd r)) l.

(** the bodies of the layers *)
Definition body_list : list bool := Eval vm_compute in map (below [(5, 9); (12, 12); (17, 18); (20, 22); (25, 25); (79, 79); (84, 106); (113, 118); (135, 135); (140, 152); (158, 176); (185, 199)]) (seq 0 200).
Definition body_fit_list : list bool := Eval vm_compute in
  map (fun e => nth e body_list false && negb (below [(22, 22); (25, 25); (175, 176); (188, 188); (190, 190); (193, 199)] e)) (seq 0 200).
(** the whole rule *)
Definition whole_list : list bool := Eval vm_compute in
  map (below [(1, 1); (4, 9); (12, 12); (16, 18); (20, 25); (38, 51); (57, 76); (78, 106); (113, 118); (133, 152); (158, 199)]) (seq 0 200).
Definition whole_fit_list : list bool := Eval vm_compute in
  map (fun e => nth e whole_list false && negb (below [(1, 1); (16, 16); (22, 25); (38, 51); (57, 60); (65, 65); (68, 73); (75, 76); (133, 133); (138, 139); (175, 176); (179, 180); (183, 184); (188, 188); (190, 190); (193, 199)] e)) (seq 0 200).
Definition params_list : list (list nat) := Eval vm_compute in
  map (fun e => (if below [(20, 20); (158, 158); (164, 167)] e then [0] else []) ++ (if below [(21, 21); (169, 170); (172, 172)] e then [1] else [])
    ++ (if below [(25, 25); (185, 186); (188, 188); (190, 190); (197, 199)] e then [2] else [])
    ++ (if below [(25, 25); (187, 192); (194, 199)] e then [3] else [])) (seq 0 200).

Definition body_in (e : nat) : bool := nth e body_list false.
Definition body_fit (e : nat) : bool := nth e body_fit_list false.
Definition whole_in (e : nat) : bool := nth e whole_list false.
Definition whole_fit (e : nat) : bool := nth e whole_fit_list false.
Definition params_of (e : nat) : list nat := nth e params_list [].

(** neither the error token nor a hash *)
Definition tame (t : nat) : bool := negb (t =? ERROR) && negb (t =? 118).

Lemma body_table : inside_table fall_grammar body_in body_fit params_of tame.
Proof. apply table_ok. vm_compute. reflexivity. Qed.

Lemma whole_table : inside_table fall_grammar whole_in whole_fit params_of tame.
Proof. apply table_ok. vm_compute. reflexivity. Qed.

Fixpoint no_text_from (e : nat) (l : list expr) : bool :=
  match l with [] => true | x :: r => implb (body_in e) (match x with EContextual _ _ => false | _ => true end) && no_text_from (S e) r end.

Lemma body_no_text : forall e ty txt, body_in e = true -> nth_error (g_rules fall_grammar) e <> Some (EContextual ty txt).
Proof.
  assert (X : forall l k e ty txt, no_text_from k l = true -> body_in (k + e) = true -> nth_error l e <> Some (EContextual ty txt)).
  { induction l as [|y l IH]; intros k [|e] ty txt T C N; cbn in N; try discriminate; cbn [no_text_from] in T; apply andb_prop in T; destruct T as [T1 T2].
    - injection N as ->. rewrite Nat.add_0_r in C. rewrite C in T1. discriminate T1.
    - rewrite Nat.add_succ_r in C. exact (IH (S k) e ty txt T2 C N). }
  intros e ty txt. apply (X _ 0). vm_compute. reflexivity.
Qed.

(** ** Covers *)
Record covers (E : env) (l b k : nat) : Prop := {
  cv_rules : exists y w, rule E l (EOr [y]) /\ rule E y (EAnd [w] None) /\ exists e2 e3 t2 t3, rule E w (ECall 25 [(2, e2); (3, e3)])
    /\ rule E e2 (EToken t2) /\ type E t2 b /\ rule E e3 (EToken t3) /\ type E t3 k;
  cv_apart : b <> k }.

Lemma fall_braces : forall E, e_g E = fall_grammar -> covers E 22 119 120.
Proof.
  intros E G. split; [|discriminate]. exists 176, 175. split; [apply fall_rule; [exact G|reflexivity]|]. split; [apply fall_rule; [exact G|reflexivity]|].
  exists 173, 174, 20, 21. repeat (split; [first [apply fall_rule; [exact G|reflexivity]|apply fall_type; [exact G|reflexivity]]|]). apply fall_type; [exact G|reflexivity].
Qed.
Lemma fall_parens : forall E, e_g E = fall_grammar -> covers E 23 125 126.
Proof.
  intros E G. split; [|discriminate]. exists 180, 179. split; [apply fall_rule; [exact G|reflexivity]|]. split; [apply fall_rule; [exact G|reflexivity]|].
  exists 177, 178, 26, 27. repeat (split; [first [apply fall_rule; [exact G|reflexivity]|apply fall_type; [exact G|reflexivity]]|]). apply fall_type; [exact G|reflexivity].
Qed.
Lemma fall_squares : forall E, e_g E = fall_grammar -> covers E 24 121 122.
Proof.
  intros E G. split; [|discriminate]. exists 184, 183. split; [apply fall_rule; [exact G|reflexivity]|]. split; [apply fall_rule; [exact G|reflexivity]|].
  exists 181, 182, 22, 23. repeat (split; [first [apply fall_rule; [exact G|reflexivity]|apply fall_type; [exact G|reflexivity]]|]). apply fall_type; [exact G|reflexivity].
Qed.

Section Cover.
  Variable E : env.
  Hypothesis G : e_g E = fall_grammar.
  Variables l b k : nat.
  Hypothesis CV : covers E l b k.

  Lemma cover_binds : forall e2 e3 t2 t3 rd a, rule E e2 (EToken t2) -> type E t2 b -> rule E e3 (EToken t3) -> type E t3 k -> binds E [(2, e2); (3, e3)] (r_args rd) a -> brackets E (with_args rd a) b k.
  Proof.
    intros e2 e3 t2 t3 rd a R2 T2 R3 T3 H. inversion H as [|? ? ? ? ? x RX NV L1 H1|? ? ? ? ? j v RX NJ LI BR]; subst; [|unfold rule in *; congruence].
    inversion H1 as [|? ? ? ? ? x1 RX1 NV1 L2 H2|? ? ? ? ? j v RX1 NJ LI BR]; subst; [|unfold rule in *; congruence]. inversion H2; subst.
    split; [| |exact (cv_apart _ _ _ _ CV)].
    - exists e2, t2. split; [|auto]. cbn [with_args r_args]. rewrite nth_error_set_nth_neq by lia. rewrite nth_error_set_nth_eq; [reflexivity|exact L1].
    - exists e3, t3. split; [|auto]. cbn [with_args r_args]. rewrite nth_error_set_nth_eq; [reflexivity|exact L2].
  Qed.

  Lemma cover_run : forall rd p h r h1, peg E rd l p h r h1 -> exists rd1 q F, brackets E rd1 b k /\ greedy E rd1 197 p h q F h1 /\ r = Some (q, F).
  Proof.
    intros rd p h r h1 P. destruct (cv_rules _ _ _ _ CV) as (y & w & RL & RY & e2 & e3 & t2 & t3 & RW & R2 & T2 & R3 & T3).
    apply (inv_or E _ _ _ _ _ _ _ RL) in P. apply inv_first1 in P. apply (inv_and1 E _ _ _ _ _ _ _ RY) in P. apply (inv_call E _ _ _ _ _ _ _ _ RW) in P. destruct P as (a & B & P).
    apply (inv_balanced E G) in P. destruct P as (q & F & GR & ->). exists (with_args rd a), q, F. split; [|auto]. exact (cover_binds _ _ _ _ _ _ R2 T2 R3 T3 B).
  Qed.

  Lemma cover_goes : forall rd p h q F, 3 < length (r_args rd) -> (forall rd1, brackets E rd1 b k -> greedy E rd1 197 p h q F h) -> peg E rd l p h (Some (q, F)) h.
  Proof.
    intros rd p h q F LA H. destruct (cv_rules _ _ _ _ CV) as (y & w & RL & RY & e2 & e3 & t2 & t3 & RW & R2 & T2 & R3 & T3).
    assert (B : binds E [(2, e2); (3, e3)] (r_args rd) (set_nth 3 (Some e3) (set_nth 2 (Some e2) (r_args rd)))).
    { eapply bi_expr; [exact R2|intros j X; discriminate X|lia|]. eapply bi_expr; [exact R3|intros j X; discriminate X|rewrite set_nth_length; lia|]. constructor. }
    eapply or1; [exact RL|]. eapply and1; [exact RY|]. eapply peg_call; [exact RW|exact B|]. apply (balanced E G). apply H. exact (cover_binds _ _ _ _ _ _ R2 T2 R3 T3 B).
  Qed.
End Cover.

(** ** The parts of a rule *)

(** Every entry of the index is that of a token. *)
Definition indexed (E : env) : Prop := forall k, k < length (e_idx E) -> exists o i t, nth_error (e_idx E) k = Some (o, i) /\ nth_error (e_toks E) i = Some t.

Definition pub_text : bytes := [112; 117; 98].
Definition rule_text : bytes := [114; 117; 108; 101].

(** [txt] at [p] is one identifier. *)
Definition word_at (E : env) (txt : bytes) (p q : pos) : Prop :=
  text_here E p txt /\ eat E p 130 q /\ exists t, tok_at E (p_cur p) t /\ tk_len t = length txt.

(** A layer without leftovers. *)
Definition layered (E : env) (rd : reader) (l e : nat) (p k : pos) (F : list ptree) : Prop :=
  exists h0 F0 h1 r0 h2, peg E (pred_of rd) l p h0 (Some (k, F0)) h1 /\ peg E rd e (mkPos (p_cur p) (p_cur k)) h1 r0 h2
    /\ match r0 with Some (x, Fx) => x = mkPos (p_cur k) (p_cur k) /\ F = Fx | None => p_cur p = p_cur k /\ F = [] end.

Definition attr_part (E : env) (rd : reader) (p q : pos) (F : list ptree) : Prop :=
  (q = p /\ F = []) \/ exists x1 x2 k Fb, eat E p 118 x1 /\ eat E x1 121 x2 /\ layered E rd 24 135 x2 k Fb /\ eat E k 122 q
    /\ p_cur x2 <= p_cur k /\ F = [PNode 144 [] ([PTok 118 1] ++ [PTok 121 1] ++ Fb ++ [PTok 122 1] ++ [])].

Definition param_part (E : env) (rd : reader) (p q : pos) (F : list ptree) : Prop :=
  (q = p /\ F = []) \/ exists x k Fb, eat E p 125 x /\ layered E rd 23 79 x k Fb /\ eat E k 126 q
    /\ p_cur x <= p_cur k /\ F = [PNode 133 [] ([PTok 125 1] ++ Fb ++ [PTok 126 1] ++ [])].

Definition body_part (E : env) (rd : reader) (p q : pos) (F : list ptree) : Prop :=
  exists x k rd1 h0 F0 h1 h2 h3, eat E (mkPos (p_cur p) (p_cur q)) 119 x /\ brackets E rd1 119 120 /\ greedy E rd1 197 x h0 k F0 h1 /\ eat E k 120 (mkPos (p_cur q) (p_cur q))
    /\ peg E rd 9 (mkPos (p_cur p) (p_cur q)) h2 (Some (mkPos (p_cur q) (p_cur q), F)) h3.

Record rule_parts (E : env) (rd : reader) (p q : pos) (F : list ptree) : Prop := {
  rp_parts : exists p1 p2 p3 p4 p5 F1 F2 F5 F6, attr_part E rd p p1 F1
    /\ ((p2 = p1 /\ F2 = []) \/ (word_at E pub_text p1 p2 /\ F2 = [PTok 109 1]))
    /\ word_at E rule_text p2 p3 /\ eat E p3 130 p4 /\ param_part E rd p4 p5 F5 /\ body_part E rd p5 q F6
    /\ F = F1 ++ F2 ++ [PTok 106 1] ++ [PTok 130 1] ++ F5 ++ F6 ++ [] /\ p_cur p <= p_cur p1 /\ p_cur p4 <= p_cur p5;
  rp_end : p_end q = p_end p;
  rp_last : exists t, tok_at E (p_cur q - 1) t /\ tk_ty t = 120;
  rp_range : p_cur p < p_cur q <= p_end p;
  rp_tame : forall i, p_cur p <= i < p_cur q -> exists t, tok_at E i t /\ tk_ty t <> ERROR /\ (tk_ty t = 118 -> i = p_cur p) }.

Section Order.
  Variable E : env.

  Lemma inv_more : forall rd a l p h n q F h2, in_order E rd (a :: l) p h (S n) q F h2 -> exists p1 F1 h1 G, peg E rd a p h (Some (p1, F1)) h1 /\ in_order E rd l p1 h1 n q G h2 /\ F = F1 ++ G.
  Proof. intros rd a l p h n q F h2 H. inversion H; subst. do 4 eexists. eauto. Qed.

  Lemma inv_done : forall rd p h n q F h2, in_order E rd [] p h n q F h2 -> q = p /\ F = [] /\ h2 = h.
  Proof. intros rd p h n q F h2 H. inversion H; subst. auto. Qed.

  Lemma inv_and_calm : forall rd e l c p h q F h1, rule E e (EAnd l c) -> peg E rd e p h (Some (q, F)) h1 -> calms F = true -> in_order E rd l p h (length l) q F h1.
  Proof.
    intros rd e l c p h q F h1 R P CA. destruct (inv_and E _ _ _ _ _ _ _ _ R P) as (n & q' & F' & I & -> & [[-> ->]|(_ & _ & ->)]); [exact I|].
    apply calms_app in CA. destruct CA as [_ CA]. discriminate CA.
  Qed.
End Order.

Section Shape.
  Variable E : env.
  Hypothesis G : e_g E = fall_grammar.
  Hypothesis IX : indexed E.
  Hypothesis WORD : forall k o i t txt, nth_error (e_idx E) k = Some (o, i) -> nth_error (e_toks E) i = Some t -> txt = pub_text \/ txt = rule_text ->
    (exists r, skipn o (e_text E) = txt ++ r) -> length txt <= tk_len t /\ tk_ty t = 130.
  Notation len := (length (e_idx E)).
  Ltac r := first [apply fall_rule; [exact G|reflexivity] | apply fall_type; [exact G|reflexivity]].

  Lemma body_stays : forall rd e p h r h1, body_in e = true -> body_fit e = true -> params_of e = [] -> r_pred rd = false -> p_cur p <= p_end p -> p_end p <= len ->
    peg E rd e p h r h1 ->
    match r with Some (q, F) => p_cur p <= p_cur q <= p_end p /\ p_end q = p_end p /\ (calms F = true -> fit_toks tame E (p_cur p) (p_cur q)) | None => True end.
  Proof.
    intros rd e p h r h1 BI BF BP RP L1 L2 P.
    destruct (peg_inside fall_grammar body_in body_fit params_of tame body_table E E 0 0 len G G) with (rd := rd) (rd' := rd) (e := e) (p := p) (h := h) (r := r) (h1 := h1) as (_ & H & _).
    - intros k LK. destruct (IX k LK) as (o & i & t & A & B). exists o, o, i, i, t. auto.
    - intros e0 ty txt p0 r0 BI0 R0. destruct (body_no_text _ _ _ BI0 R0).
    - exact BI.
    - split; [reflexivity|]. split; [reflexivity|]. rewrite BP. intros i [].
    - unfold inside. lia.
    - exact P.
    - destruct r as [[q F]|]; [|exact I]. destruct H as ((H1 & H2 & H3) & H4 & H5 & H6). split; [lia|]. split; [exact H4|]. apply H6. rewrite BF, RP. reflexivity.
  Qed.

  Lemma tame_fit : forall i j, fit_toks tame E i j -> forall x, i <= x < j -> exists t, tok_at E x t /\ tk_ty t <> ERROR /\ tk_ty t <> 118.
  Proof.
    intros i j H x L. destruct (H x L) as (o & k & t & A & B & C). exists t. split; [exists o, k; auto|]. unfold tame in C. apply andb_prop in C. destruct C as [C1 C2].
    split; intros X; rewrite X in *; discriminate.
  Qed.

  Lemma layer_shape : forall rd e l b p h k F h1, rule E e (ELayer l b) -> body_in b = true -> body_fit b = true -> params_of b = [] -> r_pred rd = false ->
    p_cur p <= p_end p -> p_end p <= len -> peg E rd e p h (Some (k, F)) h1 -> calms F = true ->
    layered E rd l b p k F /\ p_cur p <= p_cur k <= p_end p /\ p_end k = p_end p /\ fit_toks tame E (p_cur p) (p_cur k).
  Proof.
    intros rd e l b p h k F h1 R BI BF BP RP L1 L2 P CA. destruct (inv_layer E _ _ _ _ _ _ _ _ R P) as [(X & _)|(k' & F0 & h0 & r0 & left_ & F' & T & PL & PB & M & ET & X)]; [discriminate X|].
    injection X as -> ->. destruct (PegFacts.peg_within E _ _ _ _ _ _ _ PL L1) as [W1 W2].
    pose proof (body_stays rd b (mkPos (p_cur p) (p_cur k')) h0 r0 h1 BI BF BP RP ltac:(cbn; lia) ltac:(cbn; lia) PB) as ST. cbn [p_cur p_end] in ST.
    destruct T as [|t T].
    2:{ apply calms_app in CA. destruct CA as [_ CA]. discriminate CA. }
    inversion ET as [? AE|]; subst. unfold at_end in AE. split.
    - exists h, F0, h0, r0, h1. split; [exact PL|]. split; [exact PB|]. destruct r0 as [[x Fx]|].
      + injection M as -> ->. destruct ST as (S1 & S2 & _). split; [|reflexivity]. destruct left_ as [c w]. cbn [p_cur p_end] in *. subst. reflexivity.
      + destruct M as [-> ->]. cbn [p_cur p_end] in AE. auto.
    - split; [lia|]. split; [exact W2|]. destruct r0 as [[x Fx]|].
      + injection M as -> ->. destruct ST as (S1 & S2 & S3). rewrite S2 in AE. rewrite AE in S3. exact (S3 CA).
      + destruct M as [-> ->]. cbn [p_cur p_end] in AE. intros x LX. lia.
  Qed.

  Lemma ctx_word : forall rd e ty txt p h r h1, rule E e (EContextual ty txt) -> txt = pub_text \/ txt = rule_text -> peg E rd e p h r h1 ->
    match r with Some (q, F) => exists t, type E ty t /\ word_at E txt p q /\ F = [PTok t 1] | None => True end.
  Proof.
    intros rd e ty txt p h r h1 R TX P. destruct (inv_ctx E _ _ _ _ _ _ _ _ R P) as [_ H]. destruct r as [[q F]|]; [|exact I].
    destruct H as (t & n & TY & NE & TH & WH & ->). exists t. split; [exact TY|].
    assert (NZ : length txt <> 0) by (destruct TX as [-> | ->]; discriminate).
    destruct TH as (o & i & N1 & LO & TH). assert (TK : exists x, tok_at E (p_cur p) x) by (inversion WH; subst; eauto; cbn in *; lia).
    destruct TK as (x & o' & i' & N2 & N3). rewrite N1 in N2. injection N2 as <- <-. destruct (WORD _ _ _ _ _ N1 N3 TX TH) as [W1 W2].
    assert (W : n = 1 /\ q = mkPos (S (p_cur p)) (p_end p) /\ tk_len x = length txt).
    { inversion WH as [|? t0 ln n0 ? A B C D|? t0 A B C]; subst.
      - lia.
      - destruct B as (o2 & i2 & M1 & M2). rewrite N1 in M1. injection M1 as <- <-. rewrite N3 in M2. injection M2 as <-. lia.
      - destruct B as (o2 & i2 & M1 & M2). rewrite N1 in M1. injection M1 as <- <-. rewrite N3 in M2. injection M2 as <-. auto. }
    destruct W as (-> & -> & LX). split; [|reflexivity]. split; [exists o, i; auto|]. split; [|exists x; split; [exists o, i; auto|exact LX]].
    split; [exact NE|]. split; [|reflexivity]. exists x. split; [exists o, i; auto|exact W2].
  Qed.

  Lemma eat_tok : forall p t q, eat E p t q -> exists x, tok_at E (p_cur p) x /\ tk_ty x = t.
  Proof. intros p t q (_ & X & _). exact X. Qed.

  Lemma shape : forall rd p h q F h1, r_pred rd = false -> p_cur p <= p_end p -> p_end p <= len -> peg E rd 76 p h (Some (q, F)) h1 -> calms F = true -> rule_parts E rd p q F.
  Proof.
    intros rd p h q F h1 RP L1 L2 P CA.
    apply (inv_or E _ _ [75]) in P; [|r]. apply inv_first1 in P. apply (inv_and_calm E _ _ [57; 59; 60; 61; 62; 74] (Some 3)) in P; [|r|exact CA]. cbn [length] in P.
    apply inv_more in P. destruct P as (p1 & F1 & h2 & G1 & P1 & P & ->). apply inv_more in P. destruct P as (p2 & F2 & h3 & G2 & P2 & P & ->).
    apply inv_more in P. destruct P as (p3 & F3 & h4 & G3 & P3 & P & ->). apply inv_more in P. destruct P as (p4 & F4 & h5 & G4 & P4 & P & ->).
    apply inv_more in P. destruct P as (p5 & F5 & h6 & G5 & P5 & P & ->). apply inv_more in P. destruct P as (p6 & F6 & h7 & G6 & P6 & P & ->).
    apply inv_done in P. destruct P as (-> & -> & ->).
    apply calms_app in CA. destruct CA as [C1 CA]. apply calms_app in CA. destruct CA as [C2 CA]. apply calms_app in CA. destruct CA as [C3 CA].
    apply calms_app in CA. destruct CA as [C4 CA]. apply calms_app in CA. destruct CA as [C5 CA]. apply calms_app in CA. destruct CA as [C6 _].
    (* attributes *)
    assert (A1 : attr_part E rd p p1 F1 /\ p_cur p <= p_cur p1 <= p_end p /\ p_end p1 = p_end p
      /\ forall i, p_cur p <= i < p_cur p1 -> exists t, tok_at E i t /\ tk_ty t <> ERROR /\ (tk_ty t = 118 -> i = p_cur p)).
    { apply (inv_opt E _ _ 16) in P1; [|r]. destruct P1 as (r0 & P1 & X). apply (inv_pub E _ _ 45 144 139) in P1; [|r|r]. destruct P1 as (r1 & h0 & P1 & Y).
      destruct r1 as [[q1 Fn]|]; destruct Y as [-> _]; injection X as -> ->; [|split; [left; auto|]; split; [lia|]; split; [reflexivity|]; intros i LI; lia].
      assert (CN : calms Fn = true) by (cbn in C1; rewrite andb_true_r in C1; exact C1).
      apply (inv_or E _ _ [138]) in P1; [|r]. apply inv_first1 in P1. apply (inv_and_calm E _ _ [133; 134; 136; 137] None) in P1; [|r|exact CN]. cbn [length] in P1.
      apply inv_more in P1. destruct P1 as (x1 & D1 & k1 & H1 & Q1 & P1 & ->). apply inv_more in P1. destruct P1 as (x2 & D2 & k2 & H2 & Q2 & P1 & ->).
      apply inv_more in P1. destruct P1 as (x3 & D3 & k3 & H3 & Q3 & P1 & ->). apply inv_more in P1. destruct P1 as (x4 & D4 & k4 & H4 & Q4 & P1 & ->).
      apply inv_done in P1. destruct P1 as (-> & -> & ->).
      apply (inv_token E _ _ 19 118) in Q1; [|r|r]. destruct Q1 as [_ [(z1 & E1 & X)|(X & _)]]; [|discriminate X]. injection X as -> ->.
      apply (inv_token E _ _ 22 121) in Q2; [|r|r]. destruct Q2 as [_ [(z2 & E2 & X)|(X & _)]]; [|discriminate X]. injection X as -> ->.
      apply (inv_token E _ _ 23 122) in Q4; [|r|r]. destruct Q4 as [_ [(z4 & E4 & X)|(X & _)]]; [|discriminate X]. injection X as -> ->.
      destruct (eat_next _ _ _ _ E1) as (I1 & I2 & I3). destruct (eat_next _ _ _ _ E2) as (J1 & J2 & J3). destruct (eat_next _ _ _ _ E4) as (M1 & M2 & M3).
      apply calms_app in CN. destruct CN as [_ CN]. apply calms_app in CN. destruct CN as [_ CN]. apply calms_app in CN. destruct CN as [CN _].
      assert (R136 : rule E 136 (ELayer 24 135)) by r.
      destruct (layer_shape rd 136 24 135 z2 _ x3 D3 _ R136 eq_refl eq_refl eq_refl RP ltac:(lia) ltac:(lia) Q3 CN) as (LY & S1 & S2 & S3).
      split; [right; exists z1, z2, x3, D3; repeat (split; [first [assumption|lia]|]); reflexivity|]. split; [lia|]. split; [congruence|].
      intros i LI. destruct (Nat.eq_dec i (p_cur p)) as [->|NE]; [destruct (eat_tok _ _ _ E1) as (t & T1 & T2); exists t; rewrite T2; repeat (split; [first [assumption|discriminate]|]); auto|].
      destruct (Nat.eq_dec i (p_cur z1)) as [->|NE1]; [destruct (eat_tok _ _ _ E2) as (t & T1 & T2); exists t; rewrite T2; split; [assumption|]; split; [discriminate|intros X; discriminate X]|].
      destruct (Nat.eq_dec i (p_cur x3)) as [->|NE2]; [destruct (eat_tok _ _ _ E4) as (t & T1 & T2); exists t; rewrite T2; split; [assumption|]; split; [discriminate|intros X; discriminate X]|].
      destruct (tame_fit _ _ S3 i ltac:(lia)) as (t & T1 & T2 & T3). exists t. split; [exact T1|]. split; [exact T2|congruence]. }
    destruct A1 as (A1 & A2 & A3 & A4).
    (* pub *)
    assert (B1 : ((p2 = p1 /\ F2 = []) \/ (word_at E pub_text p1 p2 /\ F2 = [PTok 109 1]))).
    { apply (inv_opt E _ _ 58) in P2; [|r]. destruct P2 as (r0 & P2 & X). assert (R58 : rule E 58 (EContextual 10 pub_text)) by r.
      pose proof (ctx_word _ _ _ _ _ _ _ _ R58 (or_introl eq_refl) P2) as Y. destruct r0 as [[x y]|]; injection X as -> ->; [|left; auto]. destruct Y as (t & T & W & ->). right. split; [exact W|].
      assert (T' : type E 10 109) by r. unfold type in *. rewrite T in T'. injection T' as ->. reflexivity. }
    (* rule *)
    assert (B3 : word_at E rule_text p2 p3 /\ F3 = [PTok 106 1]).
    { assert (R60 : rule E 60 (EContextual 7 rule_text)) by r. pose proof (ctx_word _ _ _ _ _ _ _ _ R60 (or_intror eq_refl) P3) as (t & T & W & ->). split; [exact W|].
      assert (T' : type E 7 106) by r. unfold type in *. rewrite T in T'. injection T' as ->. reflexivity. }
    destruct B3 as [B3 ->]. apply (inv_token E _ _ 31 130) in P4; [|r|r]. destruct P4 as [_ [(z4 & B4 & X)|(X & _)]]; [|discriminate X]. injection X as -> ->.
    assert (B2 : p_cur p1 <= p_cur p2 /\ p_cur p2 <= p_end p /\ p_end p2 = p_end p1 /\ forall i, p_cur p1 <= i < p_cur p2 -> exists t, tok_at E i t /\ tk_ty t = 130).
    { destruct B1 as [[-> _]|[(_ & W & _) _]]; [split; [lia|]; split; [lia|]; split; [reflexivity|]; intros i LI; lia|]. destruct (eat_next _ _ _ _ W) as (I1 & I2 & I3).
      split; [lia|]. split; [lia|]. split; [exact I2|]. intros i LI. replace i with (p_cur p1) by lia. exact (eat_tok _ _ _ W). }
    destruct B2 as (B2 & B2b & B2e & B2t). pose proof B3 as (_ & W3 & _). destruct (eat_next _ _ _ _ W3) as (K1 & K2 & K3). destruct (eat_next _ _ _ _ B4) as (K4 & K5 & K6).
    (* parameters *)
    assert (A5 : param_part E rd z4 p5 F5 /\ p_cur z4 <= p_cur p5 <= p_end p /\ p_end p5 = p_end p
      /\ forall i, p_cur z4 <= i < p_cur p5 -> exists t, tok_at E i t /\ tk_ty t <> ERROR /\ tk_ty t <> 118).
    { apply (inv_opt E _ _ 4) in P5; [|r]. destruct P5 as (r0 & P5 & X). apply (inv_pub E _ _ 34 133 83) in P5; [|r|r]. destruct P5 as (r1 & h0 & P5 & Y).
      destruct r1 as [[q1 Fn]|]; destruct Y as [-> _]; injection X as -> ->; [|split; [left; auto|]; split; [lia|]; split; [congruence|]; intros i LI; lia].
      assert (CN : calms Fn = true) by (cbn in C5; rewrite andb_true_r in C5; exact C5).
      apply (inv_or E _ _ [82]) in P5; [|r]. apply inv_first1 in P5. apply (inv_and_calm E _ _ [78; 80; 81] None) in P5; [|r|exact CN]. cbn [length] in P5.
      apply inv_more in P5. destruct P5 as (x1 & D1 & k1 & H1 & Q1 & P5 & ->). apply inv_more in P5. destruct P5 as (x3 & D3 & k3 & H3 & Q3 & P5 & ->).
      apply inv_more in P5. destruct P5 as (x4 & D4 & k4 & H4 & Q4 & P5 & ->).
      apply inv_done in P5. destruct P5 as (-> & -> & ->).
      apply (inv_token E _ _ 26 125) in Q1; [|r|r]. destruct Q1 as [_ [(z1 & E1 & X)|(X & _)]]; [|discriminate X]. injection X as -> ->.
      apply (inv_token E _ _ 27 126) in Q4; [|r|r]. destruct Q4 as [_ [(y4 & E4 & X)|(X & _)]]; [|discriminate X]. injection X as -> ->.
      destruct (eat_next _ _ _ _ E1) as (I1 & I2 & I3). destruct (eat_next _ _ _ _ E4) as (M1 & M2 & M3).
      apply calms_app in CN. destruct CN as [_ CN]. apply calms_app in CN. destruct CN as [CN _].
      assert (R80 : rule E 80 (ELayer 23 79)) by r.
      destruct (layer_shape rd 80 23 79 z1 _ x3 D3 _ R80 eq_refl eq_refl eq_refl RP ltac:(lia) ltac:(lia) Q3 CN) as (LY & S1 & S2 & S3).
      split; [right; exists z1, x3, D3; repeat (split; [first [assumption|lia]|]); reflexivity|]. split; [lia|]. split; [congruence|].
      intros i LI. destruct (Nat.eq_dec i (p_cur z4)) as [->|NE1]; [destruct (eat_tok _ _ _ E1) as (t & T1 & T2); exists t; rewrite T2; split; [assumption|]; split; discriminate|].
      destruct (Nat.eq_dec i (p_cur x3)) as [->|NE2]; [destruct (eat_tok _ _ _ E4) as (t & T1 & T2); exists t; rewrite T2; split; [assumption|]; split; discriminate|].
      exact (tame_fit _ _ S3 i ltac:(lia)). }
    destruct A5 as (A5 & A5b & A5c & A5t).
    (* body *)
    assert (R74 : rule E 74 (ELayer 73 9)) by r.
    destruct (layer_shape rd 74 73 9 p5 _ p6 F6 _ R74 eq_refl eq_refl eq_refl RP ltac:(lia) ltac:(lia) P6 C6) as (LY & S1 & S2 & S3).
    destruct LY as (g0 & F0 & g1 & r0 & g2 & PC & PB & M).
    assert (NE : p_cur p5 < p_cur p6).
    { apply (inv_or E _ _ [65; 72]) in PC; [|r]. inversion PC as [|? ? ? ? ? x ? PG|? ? ? ? ? h8 ? ? PG PF]; subst.
      - apply (inv_and E _ _ [63; 22; 64] None) in PG; [|r]. destruct PG as (n & q' & F' & IO & -> & [[-> ->]|(_ & X & _)]); [|congruence]. cbn [length] in IO.
        apply inv_more in IO. destruct IO as (y1 & D1 & k1 & H1 & Q1 & IO & _). apply (inv_token E _ _ 20 119) in Q1; [|r|r]. destruct Q1 as [_ [(z1 & E1 & X)|(X & _)]]; [|discriminate X]. injection X as -> ->.
        destruct (eat_next _ _ _ _ E1) as (I1 & I2 & I3). apply inv_more in IO. destruct IO as (y2 & D2 & k2 & H2 & Q2 & IO & _). destruct (PegFacts.peg_within E _ _ _ _ _ _ _ Q2 ltac:(lia)) as [V1 V2].
        apply inv_more in IO. destruct IO as (y3 & D3 & k3 & H3 & Q3 & IO & _). destruct (PegFacts.peg_within E _ _ _ _ _ _ _ Q3 ltac:(lia)) as [V3 V4]. apply inv_done in IO. destruct IO as (-> & _ & _). lia.
      - apply inv_first1 in PF. apply (inv_and E _ _ [66; 71] None) in PF; [|r]. destruct PF as (n & q' & F' & IO & -> & [[-> ->]|(_ & X & _)]); [|congruence]. cbn [length] in IO.
        apply inv_more in IO. destruct IO as (y1 & D1 & k1 & H1 & Q1 & IO & _). apply (inv_token E _ _ 20 119) in Q1; [|r|r]. destruct Q1 as [_ [(z1 & E1 & X)|(X & _)]]; [|discriminate X]. injection X as -> ->.
        destruct (eat_next _ _ _ _ E1) as (I1 & I2 & I3). apply inv_more in IO. destruct IO as (y2 & D2 & k2 & H2 & Q2 & IO & _). destruct (PegFacts.peg_within E _ _ _ _ _ _ _ Q2 ltac:(lia)) as [V1 V2].
        apply inv_done in IO. destruct IO as (-> & _ & _). lia. }
    destruct r0 as [[x Fx]|]; [|destruct M as [M _]; lia]. destruct M as [-> <-].
    assert (BODY : body_part E rd p5 p6 F6).
    { pose proof PB as PB0. apply (inv_pub E _ _ 38 137 106) in PB; [|r|r]. destruct PB as (r1 & g3 & PB & Y). destruct r1 as [[q1 Fn]|]; [|destruct Y as [Y _]; discriminate Y]. destruct Y as [Y _]. injection Y as <- EF.
      assert (CN : calms Fn = true) by (rewrite EF in C6; cbn in C6; rewrite andb_true_r in C6; exact C6).
      apply (inv_or E _ _ [105]) in PB; [|r]. apply inv_first1 in PB. apply (inv_and1 E _ _ 104) in PB; [|r]. apply (inv_call E _ _ 21 [(1, 103)]) in PB; [|r]. destruct PB as (aa & BA & PB).
      apply (inv_or E _ _ [172]) in PB; [|r]. apply inv_first1 in PB. apply (inv_and_calm E _ _ [168; 170; 171] (Some 1)) in PB; [|r|exact CN]. cbn [length] in PB.
      apply inv_more in PB. destruct PB as (x1 & D1 & k1 & H1 & Q1 & PB & ->). apply inv_more in PB. destruct PB as (x3 & D3 & k3 & H3 & Q3 & PB & ->).
      apply inv_more in PB. destruct PB as (x4 & D4 & k4 & H4 & Q4 & PB & ->). apply inv_done in PB. destruct PB as (XQ & -> & ->). subst x4.
      apply (inv_token E _ _ 20 119) in Q1; [|r|r]. destruct Q1 as [_ [(z1 & E1 & X)|(X & _)]]; [|discriminate X]. injection X as -> ->.
      apply (inv_token E _ _ 21 120) in Q4; [|r|r]. destruct Q4 as [_ [(y4 & E4 & X)|(X & _)]]; [|discriminate X]. injection X as <- ->.
      apply (inv_layer E _ _ 22 169) in Q3; [|r]. destruct Q3 as [(X & _)|(k' & F0' & h0' & r0' & left_ & F' & T & PL & _ & _ & _ & X)]; [discriminate X|]. injection X as <- _.
      destruct (cover_run E G 22 119 120 (fall_braces E G) _ _ _ _ _ PL) as (rd1 & q' & F'' & BR & GR & X). injection X as <- <-.
      exists z1, x3. do 6 eexists. split; [exact E1|]. split; [exact BR|]. split; [exact GR|]. split; [exact E4|exact PB0]. }
    pose proof BODY as (bx & bk & brd & bh0 & bF & bh1 & bh2 & bh3 & _ & _ & _ & EL & _). destruct (eat_next _ _ _ _ EL) as (N1 & N2 & N3). cbn [p_cur p_end] in *.
    split.
    - exists p1, p2, p3, z4, p5, F1, F2, F5, F6. repeat (split; [assumption|]). split; [reflexivity|]. lia.
    - congruence.
    - destruct (eat_tok _ _ _ EL) as (t & T1 & T2). exists t. split; [|exact T2]. replace (p_cur p6 - 1) with (p_cur bk) by lia. exact T1.
    - lia.
    - intros i LI. destruct (Nat.lt_ge_cases i (p_cur p1)) as [X1|X1]; [exact (A4 i ltac:(lia))|].
      destruct (Nat.lt_ge_cases i (p_cur p2)) as [X2|X2]; [destruct (B2t i ltac:(lia)) as (t & T1 & T2); exists t; rewrite T2; split; [exact T1|]; split; [discriminate|intros X; discriminate X]|].
      destruct (Nat.eq_dec i (p_cur p2)) as [->|X3]; [destruct (eat_tok _ _ _ W3) as (t & T1 & T2); exists t; rewrite T2; split; [exact T1|]; split; [discriminate|intros X; discriminate X]|].
      destruct (Nat.eq_dec i (p_cur p3)) as [->|X4]; [destruct (eat_tok _ _ _ B4) as (t & T1 & T2); exists t; rewrite T2; split; [exact T1|]; split; [discriminate|intros X; discriminate X]|].
      destruct (Nat.lt_ge_cases i (p_cur p5)) as [X5|X5]; [destruct (A5t i ltac:(lia)) as (t & T1 & T2 & T3)|destruct (tame_fit _ _ S3 i ltac:(lia)) as (t & T1 & T2 & T3)]; (exists t; split; [exact T1|]; split; [exact T2|congruence]).
  Qed.
End Shape.

(** ** The same rule in another file *)
Section Moving.
  Variables (E E' : env) (a a' n w' : nat).
  Hypothesis G : e_g E = fall_grammar.
  Hypothesis G' : e_g E' = fall_grammar.
  Hypothesis SAME : same_toks E E' a a' n.
  Hypothesis HERE : forall k txt w w2, k < n -> text_here E (mkPos (a + k) w) txt -> (exists t, tok_at E (a + k) t /\ tk_len t = length txt) -> text_here E' (mkPos (a' + k) w2) txt.
  Hypothesis WIDE : a' + n <= w'.
  Variables rd rd' : reader.
  Hypothesis RP : r_pred rd = false.
  Hypothesis RP' : r_pred rd' = false.
  Hypothesis RA : length (r_args rd) = 16.
  Hypothesis RA' : length (r_args rd') = 16.
  Ltac r := first [apply fall_rule; [exact G'|reflexivity] | apply fall_type; [exact G'|reflexivity]].

  Definition tr (p : pos) : pos := mkPos (p_cur p - a + a') w'.

  Lemma eat_tr : forall p t q, eat E p t q -> a <= p_cur p < a + n -> eat E' (tr p) t (tr q).
  Proof. intros p t q H L. unfold tr. eapply eat_moved; [exact SAME|exact H|exact L|lia]. Qed.

  (** In any window that ends inside. *)
  Lemma eat_tr_in : forall p t q w, eat E p t q -> a <= p_cur p < a + n -> p_cur p - a + a' < w -> eat E' (mkPos (p_cur p - a + a') w) t (mkPos (p_cur q - a + a') w).
  Proof. intros p t q w H L LW. eapply eat_moved; [exact SAME|exact H|exact L|exact LW]. Qed.

  Lemma body_goes : forall e p h r h1, body_in e = true -> params_of e = [] -> a <= p_cur p -> p_cur p <= p_end p -> p_end p <= a + n -> peg E rd e p h r h1 ->
    forall h', exists pv, peg E' rd' e (sh a a' p) h' (shr a a' r) (mkRg pv (h_repl h')).
  Proof.
    intros e p h r h1 BI BP L1 L2 L3 P.
    destruct (peg_inside fall_grammar body_in body_fit params_of tame body_table E E' a a' n G G') with (rd := rd) (rd' := rd') (e := e) (p := p) (h := h) (r := r) (h1 := h1) as (_ & _ & H).
    - exact SAME.
    - intros e0 ty txt p0 r0 BI0 R0. destruct (body_no_text _ _ _ BI0 R0).
    - exact BI.
    - split; [congruence|]. split; [congruence|]. rewrite BP. intros i [].
    - unfold inside. lia.
    - exact P.
    - exact H.
  Qed.

  Lemma regs_eta : forall h, h = mkRg (h_prev h) (h_repl h).
  Proof. intros []. reflexivity. Qed.

  Lemma layered_goes : forall e2 l b k e p x z F, rule E' e2 (ELayer l e) -> covers E l b k -> covers E' l b k -> body_in e = true -> params_of e = [] ->
    layered E rd l e p x F -> eat E x k z -> a <= p_cur p -> p_cur p <= p_end p -> p_cur p <= p_cur x -> p_cur x < a + n ->
    forall h', exists pv, peg E' rd' e2 (tr p) h' (Some (tr x, F)) (mkRg pv (h_repl h')).
  Proof.
    intros e2 l b k e p x z F R2 CV CV' BI BP (h0 & F0 & h1 & r0 & h2 & PL & PB & M) EZ L1 L2 L3 L4 h'.
    destruct (cover_run E G l b k CV _ _ _ _ _ PL) as (rd1 & q1 & F1 & BR & GR & X). injection X as <- <-.
    assert (CO : peg E' (pred_of rd') l (tr p) h' (Some (tr x, F0)) h').
    { apply (cover_goes E' G' l b k CV'); [cbn [pred_of r_args]; lia|]. intros rd1' BR'. unfold tr. eapply (bal_moved E E' a a' n G G' SAME rd1 rd1' b k BR BR'); [apply le_n|exact L2|exact GR|exact EZ|exact L1|exact L4|lia]. }
    destruct (body_goes e (mkPos (p_cur p) (p_cur x)) _ _ _ BI BP ltac:(cbn; exact L1) ltac:(cbn; exact L3) ltac:(cbn; lia) PB h') as (pv & PB'). exists pv.
    change F with (match @nil ptree with [] => F | _ => F ++ [error_node []] end).
    eapply peg_layer with (T := []) (left_ := mkPos (p_cur x - a + a') (p_cur x - a + a')); [exact R2|exact CO|exact PB'| |apply eats_end; reflexivity].
    destruct r0 as [[y Fy]|]; cbn [shr].
    - destruct M as [-> ->]. reflexivity.
    - destruct M as [M ->]. split; [|reflexivity]. unfold tr. cbn [p_cur]. rewrite M. reflexivity.
  Qed.

  Lemma word_goes : forall e ty t txt p q, rule E' e (EContextual ty txt) -> type E' ty t -> length txt <> 0 -> word_at E txt p q -> a <= p_cur p < a + n ->
    forall h', peg E' rd' e (tr p) h' (Some (tr q, [PTok t 1])) h'.
  Proof.
    intros e ty t txt p q R T NZ (TH & EA & x & TX & LX) L h'. pose proof (eat_tr _ _ _ EA L) as EA'. pose proof (eat_next _ _ _ _ EA) as (N1 & _).
    eapply peg_ctx; [exact R|exact T|exact (proj1 EA')| |].
    - unfold tr. replace (p_cur p - a + a') with (a' + (p_cur p - a)) by lia. apply HERE with (w := p_end p); [lia| |].
      + replace (a + (p_cur p - a)) with (p_cur p) by lia. exact TH.
      + exists x. replace (a + (p_cur p - a)) with (p_cur p) by lia. auto.
    - destruct (SAME (p_cur p - a) ltac:(lia)) as (o1 & o2 & i1 & i2 & y & J1 & J2 & J3 & J4). replace (a + (p_cur p - a)) with (p_cur p) in J1 by lia.
      destruct TX as (o & i & X1 & X2). rewrite J1 in X1. injection X1 as -> ->. rewrite J2 in X2. injection X2 as ->. rewrite <- LX.
      replace (tr q) with (mkPos (S (p_cur (tr p))) (p_end (tr p))) by (unfold tr; cbn [p_cur p_end]; f_equal; lia).
      apply whole_last; [exact (proj1 EA')| |lia]. unfold tr. cbn [p_cur]. exists o2, i2. replace (p_cur p - a + a') with (a' + (p_cur p - a)) by lia. auto.
  Qed.

  (** No [pub] where there is [rule]. *)
  Lemma not_pub : forall p q, word_at E rule_text p q -> a <= p_cur p < a + n -> forall h', peg E' rd' 58 (tr p) h' None h'.
  Proof.
    intros p q (TH & EA & x & TX & LX) L h'. pose proof (eat_tr _ _ _ EA L) as EA'. assert (R58 : rule E' 58 (EContextual 10 pub_text)) by r.
    eapply peg_ctx_other; [exact R58|exact (proj1 EA')|].
    assert (TH' : text_here E' (mkPos (a' + (p_cur p - a)) w') rule_text).
    { apply HERE with (w := p_end p); [lia| |].
      + replace (a + (p_cur p - a)) with (p_cur p) by lia. exact TH.
      + exists x. replace (a + (p_cur p - a)) with (p_cur p) by lia. auto. }
    destruct TH' as (o & i & X1 & X2 & rr & X3). exists o, i. unfold tr. cbn [p_cur] in *. replace (p_cur p - a + a') with (a' + (p_cur p - a)) by lia.
    split; [exact X1|]. split; [exact X2|]. intros (r' & X4). rewrite X3 in X4. discriminate X4.
  Qed.

  Lemma rule_goes : forall p q F, rule_parts E rd p q F -> p_end p <= length (e_idx E) -> a = p_cur p -> n = p_cur q - p_cur p ->
    forall h', exists pv, peg E' rd' 76 (mkPos a' w') h' (Some (mkPos (a' + n) w', F)) (mkRg pv (h_repl h')).
  Proof.
    intros p q F [PARTS EN _ RG _] LE EA EN' h'. destruct PARTS as (p1 & p2 & p3 & p4 & p5 & F1 & F2 & F5 & F6 & A1 & A2 & A3 & A4 & A5 & A6 & -> & LP1 & LP5).
    destruct A6 as (x & k & rd1 & h0 & F0 & h1 & h2 & h3 & B1 & B2 & B3 & B4 & B5). pose proof A3 as (_ & W3 & _).
    destruct (eat_next _ _ _ _ W3) as (K1 & K2 & K3). destruct (eat_next _ _ _ _ A4) as (K4 & K5 & K6). destruct (eat_next _ _ _ _ B1) as (K7 & K8 & K9). destruct (eat_next _ _ _ _ B4) as (M1 & M2 & M3).
    cbn [p_cur p_end] in *.
    assert (P12 : p_cur p1 <= p_cur p2 /\ p_end p2 = p_end p1 /\ exists z, eat E p1 130 z).
    { destruct A2 as [[-> _]|[(_ & W & _) _]]; [split; [lia|]; split; [reflexivity|]; eauto|]. destruct (eat_next _ _ _ _ W) as (I1 & I2 & I3). split; [lia|]. split; [exact I2|]. eauto. }
    destruct P12 as (P12 & P12e & z1 & FIRST).
    assert (PE1 : p_end p1 = p_end p).
    { destruct A1 as [[-> _]|(x1 & x2 & y & Fb & E1 & E2 & LY & E4 & LX & _)]; [reflexivity|]. destruct (eat_next _ _ _ _ E1) as (_ & I2 & I3). destruct (eat_next _ _ _ _ E2) as (_ & J2 & _). destruct (eat_next _ _ _ _ E4) as (_ & L2 & _).
      destruct (eat_next _ _ _ _ E1) as (I1 & _). destruct (eat_next _ _ _ _ E2) as (J1 & _ & J3).
      destruct LY as (u0 & u1 & u2 & u3 & u4 & PL & _). destruct (peg_within E _ _ _ _ _ _ _ PL ltac:(lia)) as [_ V]. congruence. }
    assert (LE5 : p_cur p5 < p_cur q).
    { assert (GX : p_cur x <= p_cur k); [|lia].
      destruct (Nat.le_gt_cases (p_cur x) (p_end x)) as [GX|GX].
      - destruct (bal_run E G rd1 119 120 B2 _ x _ _ _ _ (le_n _) GX B3) as (_ & X & _). lia.
      - pose proof (proj1 (proj2 (proj2 (proj2 (proj2 (OccurProofs.good_all E)))))  _ _ _ _ _ _ _ B3) as [(X & _) _]. lia. }
    (* attributes *)
    assert (Q1 : exists pv, peg E' rd' 57 (mkPos a' w') h' (Some (tr p1, F1)) (mkRg pv (h_repl h'))).
    { assert (R57 : rule E' 57 (EOpt 16)) by r. assert (R16 : rule E' 16 (EPub 45 139 false)) by r. assert (T45 : type E' 45 144) by r. assert (R139 : rule E' 139 (EOr [138])) by r.
      assert (R138 : rule E' 138 (EAnd [133; 134; 136; 137] None)) by r. assert (R133 : rule E' 133 (EToken 19)) by r. assert (T19 : type E' 19 118) by r.
      assert (TP : mkPos a' w' = tr p) by (unfold tr; f_equal; lia). rewrite TP.
      destruct A1 as [[-> ->]|(x1 & x2 & y & Fb & E1 & E2 & LY & E4 & LX & ->)].
      - exists (h_prev h'). rewrite <- regs_eta. eapply peg_opt_none; [exact R57|]. eapply peg_pub_fail; [exact R16|exact T45|]. cbn match. eapply or1; [exact R139|].
        eapply peg_and_fail with (n := 0); [exact R138|cbn; lia|]. apply io_stop. eapply peg_token_other; [exact R133|exact T19| |].
        + apply (eat_tr _ _ _ FIRST). lia.
        + discriminate.
      - destruct (eat_next _ _ _ _ E1) as (I1 & I2 & I3). destruct (eat_next _ _ _ _ E2) as (J1 & J2 & J3). destruct (eat_next _ _ _ _ E4) as (L1 & L2 & L3).
        assert (R136 : rule E' 136 (ELayer 24 135)) by r. assert (R134 : rule E' 134 (EToken 22)) by r. assert (T22 : type E' 22 121) by r. assert (R137 : rule E' 137 (EToken 23)) by r. assert (T23 : type E' 23 122) by r.
        destruct (layered_goes 136 24 121 122 135 x2 y _ Fb R136 (fall_squares E G) (fall_squares E' G') eq_refl eq_refl LY E4 ltac:(lia) ltac:(lia) LX ltac:(lia) h') as (pv & PY).
        exists (Some 144). eapply peg_opt; [exact R57|]. change (h_repl h') with (h_repl (mkRg pv (h_repl h'))). eapply peg_pub; [exact R16|exact T45|]. eapply or1; [exact R139|]. eapply peg_and_all; [exact R138|exact I|]. cbn [length].
        eapply io_more; [eapply peg_token; [exact R133|exact T19|apply (eat_tr _ _ _ E1); lia]|]. eapply io_more; [eapply peg_token; [exact R134|exact T22|apply (eat_tr _ _ _ E2); lia]|].
        eapply io_more; [exact PY|]. eapply io_more; [eapply peg_token; [exact R137|exact T23|apply (eat_tr _ _ _ E4); lia]|constructor]. }
    destruct Q1 as (pv1 & Q1). set (h1' := mkRg pv1 (h_repl h')) in *.
    assert (Q2 : peg E' rd' 59 (tr p1) h1' (Some (tr p2, F2)) h1').
    { assert (R59 : rule E' 59 (EOpt 58)) by r. assert (R58 : rule E' 58 (EContextual 10 pub_text)) by r. assert (T10 : type E' 10 109) by r.
      destruct A2 as [[-> ->]|[W ->]].
      - eapply peg_opt_none; [exact R59|]. eapply not_pub; [exact A3|lia].
      - eapply peg_opt; [exact R59|]. eapply word_goes; [exact R58|exact T10|discriminate|exact W|]. lia. }
    assert (Q3 : peg E' rd' 60 (tr p2) h1' (Some (tr p3, [PTok 106 1])) h1').
    { assert (R60 : rule E' 60 (EContextual 7 rule_text)) by r. assert (T7 : type E' 7 106) by r. eapply word_goes; [exact R60|exact T7|discriminate|exact A3|lia]. }
    assert (Q4 : peg E' rd' 61 (tr p3) h1' (Some (tr p4, [PTok 130 1])) h1').
    { assert (R61 : rule E' 61 (EToken 31)) by r. assert (T31 : type E' 31 130) by r. eapply peg_token; [exact R61|exact T31|]. apply (eat_tr _ _ _ A4). lia. }
    assert (Q5 : exists pv, peg E' rd' 62 (tr p4) h1' (Some (tr p5, F5)) (mkRg pv (h_repl h1'))).
    { assert (R62 : rule E' 62 (EOpt 4)) by r. assert (R4 : rule E' 4 (EPub 34 83 false)) by r. assert (T34 : type E' 34 133) by r. assert (R83 : rule E' 83 (EOr [82])) by r.
      assert (R82 : rule E' 82 (EAnd [78; 80; 81] None)) by r. assert (R78 : rule E' 78 (EToken 26)) by r. assert (T26 : type E' 26 125) by r.
      destruct A5 as [[-> ->]|(x1 & y & Fb & E1 & LY & E4 & LX & ->)].
      - exists (h_prev h1'). rewrite <- regs_eta. eapply peg_opt_none; [exact R62|]. eapply peg_pub_fail; [exact R4|exact T34|]. cbn match. eapply or1; [exact R83|].
        eapply peg_and_fail with (n := 0); [exact R82|cbn; lia|]. apply io_stop. eapply peg_token_other; [exact R78|exact T26| |].
        + unfold tr. apply (eat_tr_in _ _ _ w' B1); cbn [p_cur]; lia.
        + discriminate.
      - destruct (eat_next _ _ _ _ E1) as (I1 & I2 & I3). destruct (eat_next _ _ _ _ E4) as (L1 & L2 & L3).
        assert (R80 : rule E' 80 (ELayer 23 79)) by r. assert (R81 : rule E' 81 (EToken 27)) by r. assert (T27 : type E' 27 126) by r.
        destruct (layered_goes 80 23 125 126 79 x1 y _ Fb R80 (fall_parens E G) (fall_parens E' G') eq_refl eq_refl LY E4 ltac:(lia) ltac:(lia) LX ltac:(lia) h1') as (pv & PY).
        exists (Some 133). eapply peg_opt; [exact R62|]. change (h_repl h1') with (h_repl (mkRg pv (h_repl h1'))). eapply peg_pub; [exact R4|exact T34|]. eapply or1; [exact R83|]. eapply peg_and_all; [exact R82|exact I|]. cbn [length].
        eapply io_more; [eapply peg_token; [exact R78|exact T26|apply (eat_tr _ _ _ E1); lia]|].
        eapply io_more; [exact PY|]. eapply io_more; [eapply peg_token; [exact R81|exact T27|apply (eat_tr _ _ _ E4); lia]|constructor]. }
    destruct Q5 as (pv5 & Q5). set (h5' := mkRg pv5 (h_repl h1')) in *.
    assert (Q6 : exists pv, peg E' rd' 74 (tr p5) h5' (Some (mkPos (a' + n) w', F6)) (mkRg pv (h_repl h5'))).
    { assert (R74 : rule E' 74 (ELayer 73 9)) by r. assert (R73 : rule E' 73 (EOr [65; 72])) by r. assert (R65 : rule E' 65 (EAnd [63; 22; 64] None)) by r.
      assert (R63 : rule E' 63 (EToken 20)) by r. assert (T20 : type E' 20 119) by r. assert (R64 : rule E' 64 (EToken 21)) by r. assert (T21 : type E' 21 120) by r.
      destruct (bal_run E G rd1 119 120 B2 _ x _ _ _ _ (le_n _) ltac:(lia) B3) as (_ & V1 & V2 & _).
      assert (CO : peg E' (pred_of rd') 22 (tr x) h5' (Some (tr k, F0)) h5').
      { apply (cover_goes E' G' 22 119 120 (fall_braces E' G')); [cbn [pred_of r_args]; lia|]. intros rd1' BR'. unfold tr.
        eapply (bal_moved E E' a a' n G G' SAME rd1 rd1' 119 120 B2 BR'); [apply le_n|lia|exact B3|exact B4|lia|lia|lia]. }
      assert (TK : mkPos (a' + n) w' = tr (mkPos (p_cur q) (p_cur q))) by (unfold tr; cbn [p_cur]; f_equal; lia). rewrite TK.
      assert (CV : peg E' (pred_of rd') 73 (tr p5) h5' (Some (tr (mkPos (p_cur q) (p_cur q)), [PTok 119 1] ++ F0 ++ [PTok 120 1] ++ [])) h5').
      { eapply peg_or; [exact R73|]. apply fo_here. eapply peg_and_all; [exact R65|exact I|]. cbn [length].
        eapply io_more; [eapply peg_token; [exact R63|exact T20|]|].
        - apply (eat_tr (mkPos (p_cur p5) (p_cur q)) _ _ B1). cbn [p_cur]. lia.
        - eapply io_more; [exact CO|]. eapply io_more; [eapply peg_token; [exact R64|exact T21|apply (eat_tr _ _ _ B4); lia]|constructor]. }
      destruct (body_goes 9 (mkPos (p_cur p5) (p_cur q)) _ _ _ eq_refl eq_refl ltac:(cbn; lia) ltac:(cbn; lia) ltac:(cbn; lia) B5 h5') as (pv & PB'). exists pv.
      change F6 with (match @nil ptree with [] => F6 | _ => F6 ++ [error_node []] end).
      eapply peg_layer with (T := []) (left_ := mkPos (p_cur q - a + a') (p_cur q - a + a')); [exact R74|exact CV|exact PB'|reflexivity|apply eats_end; reflexivity]. }
    destruct Q6 as (pv6 & Q6). exists pv6. assert (R76 : rule E' 76 (EOr [75])) by r. assert (R75 : rule E' 75 (EAnd [57; 59; 60; 61; 62; 74] (Some 3))) by r.
    eapply or1; [exact R76|]. eapply peg_and_all; [exact R75|cbn; lia|]. cbn [length].
    eapply io_more; [exact Q1|]. eapply io_more; [exact Q2|]. eapply io_more; [exact Q3|]. eapply io_more; [exact Q4|]. eapply io_more; [exact Q5|]. eapply io_more; [exact Q6|]. constructor.
  Qed.
End Moving.

(** ** Whatever the state of the parser *)
Section States.
  Variable E : env.
  Hypothesis G : e_g E = fall_grammar.
  Hypothesis NC : e_cache E = None.
  Hypothesis IX : indexed E.
  Notation len := (length (e_idx E)).

  Lemma same_place : forall p, sh 0 0 p = p.
  Proof. intros [c w]. unfold sh. cbn [p_cur p_end]. rewrite !Nat.sub_0_r, !Nat.add_0_r. reflexivity. Qed.

  Lemma any_state : forall rd p h q F h1, r_pred rd = false -> length (r_args rd) = 16 -> p_cur p <= p_end p -> p_end p <= len -> peg E rd 76 p h (Some (q, F)) h1 ->
    exists K, forall f s, K <= f -> s_pred s = false -> length (s_args s) = 16 -> exists pv, parse_expr E f 76 p s = Ok (Some q, set_prev (set_events s (s_events s ++ encs F)) pv).
  Proof.
    intros rd p h q F h1 RP RA L1 L2 P. destruct (peg_complete E _ _ _ _ _ _ P) as (K & HK). exists K. intros f s LK SP SA.
    destruct (sem_fits fall_grammar whole_in whole_fit params_of tame whole_table E E 0 0 len G G) with (f := f) (rd := rd) (rd' := rd_of s) (e := 76) (p := p) (h := h) (r := Some (q, F)) (h1 := h1) as (_ & _ & H).
    - intros k LX. destruct (IX k LX) as (o & i & t & A & B). exists o, o, i, i, t. auto.
    - intros e ty txt p0 r _ _ (I1 & I2 & I3) BT. rewrite same_place. destruct r as [[q0 F0]|]; cbn [shr]; [rewrite same_place|split; [exact BT|exact I]]. split; [exact BT|].
      unfold by_text in BT. destruct (p_empty p0); [discriminate|]. apply bind_ok in BT. destruct BT as ([o i] & _ & BT). unfold guard in BT. destruct (o <=? length (e_text E)); [|discriminate].
      destruct (is_prefix txt (skipn o (e_text E))); [|discriminate]. apply bind_ok in BT. destruct BT as (r & TT & BT). apply take_text_sound in TT. destruct r as [[m q1]|]; [|discriminate].
      apply bind_ok in BT. destruct BT as (t & _ & BT). injection BT as -> _. destruct TT as (m' & _ & WH). destruct (whole_inw E _ _ _ _ WH I2) as [W1 W2]. unfold inside. lia.
    - reflexivity.
    - split; [cbn [rd_of r_pred]; congruence|]. split; [cbn [rd_of r_args]; congruence|]. intros i [].
    - unfold inside. lia.
    - apply HK. exact LK.
    - destruct (H (mkRg (s_prev s) (s_repl s))) as (pv & X). rewrite same_place in X. cbn [shr h_repl] in X. rewrite same_place in X. exists pv.
      pose proof (sem_ref E NC f s [] (mkRg (s_prev s) (s_repl s)) 76 p) as R. rewrite <- putE_self in R. rewrite X in R. cbn in R. destruct R as (b & Q & ->). cbn [fst snd app] in Q. rewrite Q.
      unfold putE, set_prev, set_events. rewrite SP. cbn. reflexivity.
  Qed.
End States.
