(** Proofs about lexing and relexing. *)
From Coq Require Import List Arith Bool Lia.
From Verif Require Import Base BaseFacts TextModel EditModel LexModel LexSpec TextSpec TextProofs.
Import ListNotations.

Lemma lens_app : forall a b, lens (a ++ b) = lens a + lens b.
Proof. intros a b. unfold lens. rewrite map_app. apply sum_app. Qed.

Lemma lens_cons : forall t ts, lens (t :: ts) = tk_len t + lens ts.
Proof. reflexivity. Qed.

Lemma lex_loop_S : forall lx txt f, txt <> [] ->
  lex_loop (S f) lx txt = ('(t, rest) <- step lx txt ;; ts <- lex_loop f lx rest ;; Ok (t :: ts)).
Proof. intros lx [|b txt] f NE; [congruence|reflexivity]. Qed.

Lemma lex_loop_ok : forall lx, progressing lx -> forall fuel txt, length txt <= fuel ->
  exists ts, lex_loop fuel lx txt = Ok ts /\ tokenizes lx txt ts.
Proof.
  intros lx P. induction fuel as [|f IH]; intros txt L.
  - destruct txt; cbn in L; [|lia]. exists []. split; constructor.
  - destruct txt as [|b txt]; [exists []; split; constructor|].
    set (u := b :: txt) in *. assert (NE : u <> []) by discriminate.
    destruct (P u NE) as [P1 P2].
    destruct (IH (skipn (tk_len (lx u)) u)) as [ts [E T]]; [rewrite skipn_length; lia|].
    exists (lx u :: ts). split; [|constructor; auto].
    rewrite lex_loop_S by auto. unfold step.
    rewrite (proj2 (Nat.leb_le _ _) P2). cbn [guard bind]. rewrite E. reflexivity.
Qed.

Lemma lex_ok : forall lx txt, progressing lx -> exists ts, lex lx txt = Ok ts /\ tokenizes lx txt ts.
Proof. intros. apply lex_loop_ok; auto. Qed.

Lemma tokenizes_fun : forall lx txt ts, tokenizes lx txt ts -> forall us, tokenizes lx txt us -> ts = us.
Proof.
  intros lx txt ts T. induction T as [|txt t ts NE E T IH]; intros us U; inversion U as [|? u us' NE' E' U']; subst; auto.
  - congruence.
  - congruence.
  - f_equal. auto.
Qed.

Lemma tokenizes_lens : forall lx, progressing lx -> forall txt ts, tokenizes lx txt ts -> lens ts = length txt.
Proof.
  intros lx P txt ts T. induction T as [|txt t ts NE E T IH]; [reflexivity|].
  rewrite lens_cons, IH, skipn_length. destruct (P txt NE). subst. lia.
Qed.

Lemma tokenizes_cut : forall lx, progressing lx -> forall txt ts, tokenizes lx txt ts ->
  concat (cut txt ts) = txt /\ Forall (fun t => 0 < tk_len t) ts /\ map (@length nat) (cut txt ts) = map tk_len ts.
Proof.
  intros lx P txt ts T. induction T as [|txt t ts NE E T [IH1 [IH2 IH3]]]; [repeat split; constructor|].
  destruct (P txt NE) as [P1 P2]. rewrite E in *. cbn [cut concat map]. repeat split.
  - rewrite IH1. apply firstn_skipn.
  - constructor; auto.
  - f_equal; auto. apply firstn_length_le. auto.
Qed.

Lemma lex_zero_hangs : forall lx txt, txt <> [] -> tk_len (lx txt) = 0 -> forall fuel, lex_loop fuel lx txt = OutOfFuel.
Proof.
  intros lx txt NE Z. induction fuel as [|f IH]; [destruct txt; [congruence|reflexivity]|].
  rewrite lex_loop_S by auto. unfold step. rewrite Z. cbn [Nat.leb guard bind skipn].
  rewrite IH. reflexivity.
Qed.

(** Partial reading: [ts] are the first tokens of [txt], [rest] is what is left. *)
Inductive reads (lx : lexer) : bytes -> list token -> bytes -> Prop :=
| reads_nil : forall txt, reads lx txt [] txt
| reads_cons : forall txt t ts rest, txt <> [] -> lx txt = t -> reads lx (skipn (tk_len t) txt) ts rest ->
    reads lx txt (t :: ts) rest.

Lemma reads_snoc : forall lx txt ts rest, reads lx txt ts rest -> rest <> [] ->
  reads lx txt (ts ++ [lx rest]) (skipn (tk_len (lx rest)) rest).
Proof.
  intros lx txt ts rest R NE. induction R; cbn [app].
  - econstructor; eauto. constructor.
  - econstructor; eauto.
Qed.

Lemma reads_tokenizes : forall lx txt ts rest us, reads lx txt ts rest -> tokenizes lx rest us -> tokenizes lx txt (ts ++ us).
Proof. intros lx txt ts rest us R T. induction R; cbn [app]; [auto|]. econstructor; eauto. Qed.

Lemma firstn_skipn_app_sub : forall (old b : bytes) s e k n, s <= e -> e <= length old -> k + n <= e - s ->
  firstn n (skipn k (sub s e old ++ b)) = firstn n (skipn (s + k) old).
Proof.
  intros old b s e k n L1 L2 L3. unfold sub.
  assert (LL : length (firstn (e - s) (skipn s old)) = e - s) by (rewrite firstn_length, skipn_length; lia).
  rewrite skipn_app, firstn_app. replace (n - length (skipn k (firstn (e - s) (skipn s old)))) with 0
    by (rewrite skipn_length, LL; lia).
  rewrite firstn_O, app_nil_r. rewrite skipn_firstn_comm, firstn_firstn, skipn_skipn.
  f_equal. lia.
Qed.

Lemma subseq_app : forall A (a b : list A), subseq a b -> forall c d, subseq c d -> subseq (a ++ c) (b ++ d).
Proof.
  intros A a b S. induction S as [l|x a b S IH|x a b S IH]; intros c d T; cbn [app]; try (constructor; auto).
  induction l as [|x l IHl]; cbn [app]; [auto|]. constructor. auto.
Qed.

Lemma subseq_app_r : forall A (a b : list A) c, subseq a b -> subseq a (b ++ c).
Proof. intros A a b c S. rewrite <- (app_nil_r a). apply subseq_app; auto. constructor. Qed.

Section Relex.
  Variables (lx : lexer) (old new : bytes) (old_toks : list token).
  Hypothesis P : progressing lx.

  Definition noerr (t : token) : Prop := tk_ty t <> ERROR.

  (** Where copied pieces of the old text end. *)
  Variable ends : nat -> Prop.

  (** A token of the old text that ends before the end of a copied piece is also what the lexer returns at the place in the
      new text to which it is copied. *)
  Definition ahead : Prop :=
    forall before ts done q m, old_toks = before ++ ts -> tokenizes lx (skipn (lens before) old) ts -> Forall noerr ts ->
      reads lx new done (skipn q new) -> q = lens done ->
      ends (lens before + m) -> lens before + m <= length old -> q + m <= length new ->
      firstn m (skipn q new) = firstn m (skipn (lens before) old) -> tk_len (lx (skipn (lens before) old)) < m ->
      lx (skipn q new) = lx (skipn (lens before) old).

  Lemma one_byte_ahead : one_byte_lookahead lx -> ahead.
  Proof.
    intros One before ts done q m E T F _ _ _ L1 L2 C LT. inversion T as [E0 ET|u t ts' NE ET T' EU ETS].
    - (* nothing is left *)
      symmetry in E0. apply (f_equal (@length nat)) in E0. rewrite skipn_length in E0. cbn [length] in E0. lia.
    - subst. inversion F as [|? ? F1 F2]; subst. apply One; [exact F1| |].
      + rewrite skipn_length. lia.
      + replace (S (tk_len (lx (skipn (lens before) old)))) with (min (S (tk_len (lx (skipn (lens before) old)))) m) by lia.
        rewrite <- !firstn_firstn, C. reflexivity.
  Qed.

  (** What is needed for the result to be the plain lexing. *)
  Definition K : Prop := ahead /\ tokenizes lx old old_toks /\ Forall noerr old_toks.

  Record inv (pre : nat) (s : relex_state) : Prop := {
    i_point : rx_point s = pre;
    i_old : rx_old_len s + lens (rx_old s) = length old;
    i_new : rx_new_len s = lens (rx_new s);
    i_new_le : rx_new_len s <= length new;
    i_reused : rx_reused s <= rx_new_len s;
    i_ru : exists ru used, old_toks = used ++ rx_old s /\ subseq ru used /\ subseq ru (rx_new s) /\ rx_reused s = lens ru;
    i_k : K -> tokenizes lx (skipn (rx_old_len s) old) (rx_old s) /\ Forall noerr (rx_old s)
               /\ reads lx new (rx_new s) (skipn (rx_new_len s) new) }.

  Lemma step_ok : forall nl, nl < length new ->
    let t := lx (skipn nl new) in
    step lx (skipn nl new) = Ok (t, skipn (nl + tk_len t) new) /\ 0 < tk_len t /\ nl + tk_len t <= length new
    /\ skipn nl new <> [].
  Proof.
    intros nl L t. assert (NE : skipn nl new <> []).
    { intro H. apply (f_equal (@length nat)) in H. rewrite skipn_length in H. cbn in H. lia. }
    destruct (P _ NE) as [P1 P2]. fold t in P1, P2. rewrite skipn_length in P2. repeat split; auto; try lia.
    unfold step. fold t. rewrite (proj2 (Nat.leb_le _ _)) by (rewrite skipn_length; lia).
    cbn [guard]. rewrite skipn_skipn. reflexivity.
  Qed.

  Lemma inv_step : forall pre s, inv pre s -> rx_new_len s < length new ->
    let t := lx (skipn (rx_new_len s) new) in
    inv pre (mkRx (rx_old s) (rx_old_len s) (rx_new s ++ [t]) (rx_new_len s + tk_len t) (rx_point s) (rx_reused s)).
  Proof.
    intros pre s I L t. destruct (step_ok _ L) as (_ & Q1 & Q2 & NE). fold t in Q1, Q2. destruct I.
    constructor; cbn [rx_old rx_old_len rx_new rx_new_len rx_point rx_reused]; auto; try lia.
    - rewrite lens_app, i_new0. cbn. lia.
    - destruct i_ru0 as (ru & used & U1 & U2 & U3 & U4). exists ru, used. repeat split; auto. apply subseq_app_r. auto.
    - intro k. destruct (i_k0 k) as (A & B & C). repeat split; auto.
      rewrite <- skipn_skipn. apply reads_snoc; auto.
  Qed.

  Lemma inv_old : forall pre s t r, inv pre s -> rx_old s = t :: r ->
    inv pre (mkRx r (rx_old_len s + tk_len t) (rx_new s) (rx_new_len s) (rx_point s) (rx_reused s)).
  Proof.
    intros pre s t r I E. destruct I. rewrite E in *. rewrite lens_cons in *. cbn [length] in *.
    constructor; cbn [rx_old rx_old_len rx_new rx_new_len rx_point rx_reused]; auto; try lia.
    - destruct i_ru0 as (ru & used & U1 & U2 & U3 & U4). exists ru, (used ++ [t]). rewrite <- app_assoc. repeat split; auto.
      apply subseq_app_r. auto.
    - intro k. destruct (i_k0 k) as (A & B & C). inversion A; subst. inversion B; subst. repeat split; auto.
      rewrite <- skipn_skipn. auto.
  Qed.

  Lemma lex_up_to_ok : forall pre fuel s, inv pre s -> pre <= length new -> length new - rx_new_len s <= fuel ->
    exists new' nl', lex_up_to fuel lx pre (skipn (rx_new_len s) new) (rx_new s) (rx_new_len s)
                       = Ok (skipn nl' new, new', nl')
      /\ inv pre (mkRx (rx_old s) (rx_old_len s) new' nl' (rx_point s) (rx_reused s)) /\ pre <= nl'.
  Proof.
    intros pre. induction fuel as [|f IH]; intros s I Lp Lf; pose proof I as I0; destruct I0.
    - cbn [lex_up_to]. destruct (Nat.ltb_spec (rx_new_len s) pre); [lia|].
      exists (rx_new s), (rx_new_len s). destruct s; auto.
    - cbn [lex_up_to]. destruct (Nat.ltb_spec (rx_new_len s) pre).
      + destruct (step_ok (rx_new_len s)) as (E & Q1 & Q2 & NE); [lia|]. rewrite E. cbn [bind].
        apply (IH (mkRx (rx_old s) (rx_old_len s) (rx_new s ++ [lx (skipn (rx_new_len s) new)])
                    (rx_new_len s + tk_len (lx (skipn (rx_new_len s) new))) (rx_point s) (rx_reused s)));
          cbn [rx_new_len]; auto; try lia. apply inv_step; auto; lia.
      + exists (rx_new s), (rx_new_len s). destruct s; auto.
  Qed.

  Lemma skip_old_ok : forall pre st o s, rx_old s = o -> inv pre s -> st <= length old ->
    exists old' ol', skip_old st o (rx_old_len s) = Ok (old', ol')
      /\ inv pre (mkRx old' ol' (rx_new s) (rx_new_len s) (rx_point s) (rx_reused s)) /\ st <= ol'.
  Proof.
    intros pre st o. induction o as [|t r IH]; intros s E I L; pose proof I as I0; destruct I0; cbn [skip_old].
    - destruct (Nat.ltb_spec (rx_old_len s) st).
      + rewrite E in i_old0. cbn in i_old0. lia.
      + exists [], (rx_old_len s). rewrite <- E. destruct s; auto.
    - destruct (Nat.ltb_spec (rx_old_len s) st).
      + apply (IH (mkRx r (rx_old_len s + tk_len t) (rx_new s) (rx_new_len s) (rx_point s) (rx_reused s))); auto.
        apply inv_old; auto.
      + exists (t :: r), (rx_old_len s). rewrite <- E. destruct s; auto.
  Qed.

  Variables (a b : bytes) (r : range).
  Hypothesis R : rstart r <= rend r <= length old.
  Hypothesis RE : ends (rend r).
  Hypothesis N : new = a ++ sub (rstart r) (rend r) old ++ b.

  Lemma new_length : length new = length a + (rend r - rstart r) + length b.
  Proof. rewrite N, !app_length, sub_length by lia. lia. Qed.

  Lemma reuse_ok : forall o s, rx_old s = o -> inv (length a) s -> rstart r <= rx_old_len s -> length a <= rx_new_len s ->
    rx_old_len s < rend r -> rx_new_len s - length a = rx_old_len s - rstart r ->
    exists o' ol nw nl ru, reuse (rend r) o (rx_old_len s) (rx_new s) (rx_new_len s) (rx_reused s) = (o', ol, nw, nl, ru)
      /\ inv (length a) (mkRx o' ol nw nl (rx_point s) ru) /\ rend r <= ol /\ rx_new_len s <= nl
      /\ length o' < length o.
  Proof.
    pose proof new_length as NL.
    induction o as [|t o IH]; intros s E I L1 L2 L3 S; pose proof I as I0; destruct I0.
    - rewrite E in i_old0. cbn in i_old0. lia.
    - cbn [reuse]. pose proof (inv_old _ _ _ _ I E) as J. rewrite E in *. rewrite lens_cons in *. cbn [length] in *.
      destruct (Nat.leb_spec (rend r) (rx_old_len s + tk_len t)) as [Lr|Lr].
      + exists o, (rx_old_len s + tk_len t), (rx_new s), (rx_new_len s), (rx_reused s). split; [reflexivity|]. split; [exact J|]. lia.
      + set (s' := mkRx o (rx_old_len s + tk_len t) (rx_new s ++ [t]) (rx_new_len s + tk_len t) (rx_point s) (rx_reused s + tk_len t)).
        destruct (IH s') as (o' & ol & nw & nl & ru & Q1 & Q2 & Q3 & Q4 & Q5); unfold s'; cbn; auto; try lia.
        * constructor; cbn [rx_old rx_old_len rx_new rx_new_len rx_point rx_reused]; auto; try lia.
          -- rewrite lens_app. cbn. lia.
          -- destruct i_ru0 as (ru & used & U1 & U2 & U3 & U4). exists (ru ++ [t]), (used ++ [t]).
             rewrite <- app_assoc. split; [exact U1|].
             split; [apply subseq_app; auto; repeat constructor|].
             split; [apply subseq_app; auto; repeat constructor|].
             rewrite lens_app. cbn. lia.
          -- intro k. destruct (i_k0 k) as (A & B & C). inversion A as [|? ? ? NE T TT]; subst.
             inversion B as [|? ? B1 B2]; subst. rewrite <- skipn_skipn in *. repeat split; auto.
             set (u := skipn (rx_old_len s) old) in *. set (v := skipn (rx_new_len s) new) in *.
             assert (Q : lx v = lx u).
             { destruct k as (AH & TO & _). destruct i_ru0 as (ru & used & U1 & _).
               assert (LU : lens used = rx_old_len s).
               { pose proof (tokenizes_lens lx P _ _ TO) as LO. rewrite U1, lens_app, lens_cons in LO. lia. }
               unfold u, v. rewrite <- LU. apply (AH used (lx u :: o) (rx_new s) (rx_new_len s) (rend r - rx_old_len s)); rewrite ?LU; auto; try lia.
               - replace (rx_old_len s + (rend r - rx_old_len s)) with (rend r) by lia. exact RE.
               - rewrite N. replace (rx_new_len s) with (length a + (rx_old_len s - rstart r)) by lia.
                 rewrite <- skipn_skipn, skipn_app, skipn_all, Nat.sub_diag. cbn [skipn app].
                 rewrite firstn_skipn_app_sub by lia. do 2 f_equal. lia.
               - fold u. lia. }
             rewrite <- Q. unfold v. rewrite <- skipn_skipn. apply reads_snoc; auto.
             intro Z. apply (f_equal (@length nat)) in Z. rewrite skipn_length in Z. cbn in Z. lia.
        * exists o', ol, nw, nl, ru. cbn in Q1, Q2, Q3, Q4. split; [exact Q1|]. split; [exact Q2|]. lia.
  Qed.

  Lemma copy_loop_ok : forall fuel s txt, inv (length a) s -> rstart r <= rx_old_len s -> length a <= rx_new_len s ->
    (txt = skipn (rx_new_len s) new \/ rend r <= rx_old_len s) ->
    length new - rx_new_len s + length (rx_old s) < fuel ->
    exists s', copy_loop fuel lx r txt s = Ok s' /\ inv (length a) s'.
  Proof.
    pose proof new_length as NL.
    induction fuel as [|f IH]; intros s txt I L1 L2 TX F; [lia|].
    pose proof I as I0; destruct I0. cbn [copy_loop].
    rewrite usub_le by lia. cbn [bind]. rewrite usub_le by lia. cbn [bind].
    unfold range_len. rewrite usub_le by lia. cbn [bind].
    destruct (Nat.leb_spec (rend r - rstart r) (rx_new_len s - rx_point s)) as [C1|C1]; [exists s; auto|].
    destruct (Nat.leb_spec (rend r - rstart r) (rx_old_len s - rstart r)) as [C2|C2]; [exists s; auto|].
    cbn [orb]. destruct TX as [->|TX]; [|lia].
    destruct (Nat.compare_spec (rx_new_len s - rx_point s) (rx_old_len s - rstart r)) as [C|C|C].
    - destruct (reuse_ok (rx_old s) s) as (o' & ol & nw & nl & ru & Q1 & Q2 & Q3 & Q4 & Q5); auto; try lia.
      rewrite Q1. apply IH; cbn; auto; try lia.
    - destruct (step_ok (rx_new_len s)) as (E & Q1 & Q2 & NE); [lia|]. rewrite E. cbn [bind].
      apply IH; cbn [rx_old rx_old_len rx_new rx_new_len]; auto; try lia. apply inv_step; auto; lia.
    - destruct (rx_old s) as [|t o] eqn:E; [cbn in i_old0; lia|].
      apply IH; cbn [rx_old rx_old_len rx_new rx_new_len length] in *; auto; try lia. apply inv_old; auto.
  Qed.
End Relex.

Definition op_ends (ends : nat -> Prop) (op : edit_op) : Prop := match op with Copy r => ends (rend r) | Insert _ => True end.

Lemma relex_op_ok : forall lx old new old_toks ends, progressing lx -> forall a op b s fuel,
  valid_op old op -> op_ends ends op -> new = a ++ op_bytes old op ++ b -> inv lx old new old_toks ends (length a) s ->
  length new + length old_toks + 2 <= fuel ->
  exists s', relex_op fuel lx new s op = Ok s' /\ inv lx old new old_toks ends (length (a ++ op_bytes old op)) s'.
Proof.
  intros lx old new old_toks ends P a op b s fuel V OE N I F. pose proof I as I0; destruct I0.
  destruct op as [r|t]; cbn [relex_op valid_op op_bytes op_ends] in *.
  - pose proof (new_length old new a b r V N) as NL.
    unfold suffix. rewrite (proj2 (Nat.leb_le _ _) i_new_le0). cbn [guard bind].
    destruct (lex_up_to_ok lx old new old_toks P ends (length a) fuel s I) as (n1 & nl1 & E1 & I1 & M1); [lia..|].
    rewrite i_point0. rewrite E1. cbn [bind].
    destruct (skip_old_ok lx old new old_toks ends (length a) (rstart r) (rx_old s)
                (mkRx (rx_old s) (rx_old_len s) n1 nl1 (rx_point s) (rx_reused s))) as (o2 & ol2 & E2 & I2 & M2); auto; [lia|].
    cbn in E2. rewrite E2. cbn [bind]. cbn in I2. rewrite i_point0 in I2.
    destruct (copy_loop_ok lx old new old_toks P ends a b r V OE N fuel _ (skipn nl1 new) I2) as (s3 & E3 & I3); cbn; auto.
    { destruct I2 as [_ _ _ ? _ (ru & used & U1 & _) _]. cbn in *.
      assert (length old_toks = length used + length o2) by (rewrite U1, app_length; auto). lia. }
    rewrite E3. cbn [bind]. unfold range_len. rewrite usub_le by lia. cbn [bind].
    eexists. split; [reflexivity|]. rewrite app_length, sub_length by lia. destruct I3.
    constructor; cbn [rx_old rx_old_len rx_new rx_new_len rx_point rx_reused]; auto; try lia.
  - eexists. split; [reflexivity|]. rewrite app_length.
    constructor; cbn [rx_old rx_old_len rx_new rx_new_len rx_point rx_reused]; auto; try lia.
Qed.

Lemma relex_ops_ok : forall lx old new old_toks ends, progressing lx -> forall ops a b s fuel,
  Forall (valid_op old) ops -> Forall (op_ends ends) ops -> new = a ++ result_of old ops ++ b -> inv lx old new old_toks ends (length a) s ->
  length new + length old_toks + 2 <= fuel ->
  exists s', fold_res (relex_op fuel lx new) s ops = Ok s' /\ inv lx old new old_toks ends (length (a ++ result_of old ops)) s'.
Proof.
  intros lx old new old_toks ends P. induction ops as [|op ops IH]; intros a b s fuel V OE N I F.
  - exists s. split; [reflexivity|]. unfold result_of. cbn [flat_map]. rewrite app_nil_r. auto.
  - inversion V as [|? ? V1 V2]; subst op0 l || idtac. pose proof (Forall_inv OE) as OE1. pose proof (Forall_inv_tail OE) as OE2.
    unfold result_of in *. cbn [flat_map] in *. rewrite <- app_assoc in N.
    destruct (relex_op_ok lx old new old_toks ends P a op _ s fuel V1 OE1 N I F) as (s1 & E1 & I1).
    cbn [fold_res]. rewrite E1. cbn [bind].
    destruct (IH (a ++ op_bytes old op) b s1 fuel V2) as (s2 & E2 & I2); auto.
    { rewrite <- app_assoc. auto. }
    exists s2. rewrite app_assoc. auto.
Qed.

Lemma relex_ahead : forall lx old old_toks ops, progressing lx -> lens old_toks = length old -> Forall (valid_op old) ops ->
  exists ts region, relex lx old_toks ops (result_of old ops) = Ok (ts, region)
    /\ lens ts = length (result_of old ops) 
    /\ (Exists (fun t => tk_ty t = ERROR) old_toks -> region = 0 /\ tokenizes lx (result_of old ops) ts)
    /\ (Forall (fun t => tk_ty t <> ERROR) old_toks ->
        exists kept, subseq kept old_toks /\ subseq kept ts /\ region + lens kept = length (result_of old ops))
    /\ (ahead lx old (result_of old ops) old_toks (fun e => exists r, In (Copy r) ops /\ e = rend r) ->
        tokenizes lx old old_toks -> tokenizes lx (result_of old ops) ts).
Proof.
  intros lx old old_toks ops P L V. set (new := result_of old ops). unfold relex.
  destruct (existsb (fun t => tk_ty t =? ERROR) old_toks) eqn:X.
  - destruct (lex_ok lx new P) as (ts & E & T). rewrite E. cbn [bind]. exists ts, 0.
    apply existsb_exists in X. destruct X as (t & X1 & X2). apply Nat.eqb_eq in X2.
    repeat split; auto; try lia.
    + apply (tokenizes_lens lx); auto.
    + intros F. rewrite Forall_forall in F. destruct (F t); auto.
  - assert (NE : Forall noerr old_toks).
    { apply Forall_forall. intros t It Q.
      assert (existsb (fun t => tk_ty t =? ERROR) old_toks = true); [|congruence].
      apply existsb_exists. exists t. split; auto. apply Nat.eqb_eq. auto. }
    set (ends := fun e => exists r, In (Copy r) ops /\ e = rend r).
    assert (OE : Forall (op_ends ends) ops).
    { apply Forall_forall. intros [c|t] I; cbn; [exists c; auto|exact Logic.I]. }
    destruct (relex_ops_ok lx old new old_toks ends P ops [] [] (mkRx old_toks 0 [] 0 0 0)
                (length new + length old_toks + 2)) as (s & E & I); auto.
    { rewrite app_nil_r. reflexivity. }
    { constructor; cbn [rx_old rx_old_len rx_new rx_new_len rx_point rx_reused length]; auto; try lia.
      - exists [], []. repeat split; auto; constructor.
      - intros (_ & T & _). cbn [skipn]. repeat split; auto. constructor. }
    rewrite E. cbn [bind]. destruct I. unfold suffix. rewrite (proj2 (Nat.leb_le _ _) i_new_le0). cbn [guard bind].
    destruct (lex_loop_ok lx P (length (skipn (rx_new_len s) new)) (skipn (rx_new_len s) new)) as (rest & E2 & T2); auto.
    rewrite E2. cbn [bind]. rewrite usub_le by lia. cbn [bind]. do 2 eexists. split; [reflexivity|].
    split; [|split; [|split]].
    + rewrite lens_app, (tokenizes_lens lx P _ _ T2), skipn_length. lia.
    + intros X1. apply Exists_exists in X1. destruct X1 as (t & X1 & X2). rewrite Forall_forall in NE. destruct (NE t); auto.
    + intros _. destruct i_ru0 as (ru & used & U1 & U2 & U3 & U4). exists ru. repeat split.
      * rewrite U1. apply subseq_app_r. auto.
      * apply subseq_app_r. auto.
      * lia.
    + intros One T. assert (k : K lx old new old_toks ends) by (repeat split; auto).
      destruct (i_k0 k) as (_ & _ & C). eapply reads_tokenizes; eauto.
Qed.

Lemma relex_ok : forall lx old old_toks ops, progressing lx -> lens old_toks = length old -> Forall (valid_op old) ops ->
  exists ts region, relex lx old_toks ops (result_of old ops) = Ok (ts, region)
    /\ lens ts = length (result_of old ops) 
    /\ (Exists (fun t => tk_ty t = ERROR) old_toks -> region = 0 /\ tokenizes lx (result_of old ops) ts)
    /\ (Forall (fun t => tk_ty t <> ERROR) old_toks ->
        exists kept, subseq kept old_toks /\ subseq kept ts /\ region + lens kept = length (result_of old ops))
    /\ (one_byte_lookahead lx -> tokenizes lx old old_toks -> tokenizes lx (result_of old ops) ts).
Proof.
  intros lx old old_toks ops P L V. destruct (relex_ahead lx old old_toks ops P L V) as (ts & region & A & B & C & D & E).
  exists ts, region. repeat (split; [assumption|]). intros One. apply E. apply one_byte_ahead. exact One.
Qed.

(** The edit that applies to the old text is valid and produces the concatenated pieces. *)
Lemma apply_from_result : forall old ops acc new, apply_from acc ops (as_text old) = Ok new ->
  Forall (valid_op old) ops /\ new = acc ++ result_of old ops.
Proof.
  intros old. induction ops as [|[r|t] ops IH]; intros acc new E; cbn [apply_from] in E.
  - injection E as <-. split; [constructor|]. cbn. rewrite app_nil_r. reflexivity.
  - apply bind_ok in E. destruct E as (u & E1 & E). apply bind_ok in E. destruct E as (c & E2 & E).
    destruct (IH _ _ E) as [V N].
    pose proof (as_text_wf old) as W. destruct (slice_inv _ _ _ W E1) as [P1 P2].
    rewrite as_text_bytes in P2. destruct (slice_ok (as_text old) r W P1) as (u' & F & _ & O & R & B).
    { rewrite as_text_bytes. auto. }
    rewrite E1 in F. injection F as <-. unfold as_str, str_index in E2. apply guard_ok in E2. destruct E2 as [_ E2].
    apply guard_ok in E2. destruct E2 as [_ E2]. injection E2 as <-.
    fold (bytes_of u) in N. rewrite B, as_text_bytes in N.
    split; [constructor; [split; auto|auto]|]. rewrite N, <- app_assoc. reflexivity.
  - apply bind_ok in E. destruct E as (c & E2 & E). destruct (IH _ _ E) as [V N].
    unfold as_str, str_index in E2. apply guard_ok in E2. destruct E2 as [_ E2].
    apply guard_ok in E2. destruct E2 as [_ E2]. injection E2 as <-. cbn [as_text owned trange rstart rend] in N.
    rewrite sub_full in N. split; [constructor; [exact I|auto]|]. rewrite N, <- app_assoc. reflexivity.
Qed.

Lemma apply_result : forall old ops new, apply ops (as_text old) = Ok new ->
  Forall (valid_op old) ops /\ new = result_of old ops.
Proof. intros old ops new E. apply apply_from_result in E. exact E. Qed.
