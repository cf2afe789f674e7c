(** Reparsing gives what parsing the new text gives. *)
From Coq Require Import List Arith Bool Lia.
From Verif Require Import Base BaseFacts TextModel EditModel LexModel LexSpec LexProofs TreeModel GrammarModel ParserModel ForestSpec SemSpec
  RefineProofs PegSpec PegProofs SpanSpec SpanProofs WindowProofs MonoProofs ConvertModel FileProofs OccurProofs ReparseModel ReparseSpec
  CacheProofs SalvageProofs PropsLex PropsPeg.
Import ListNotations.

(** ** Texts *)
Lemma sub_app_mid : forall (a b c : bytes), sub (length a) (length a + length b) (a ++ b ++ c) = b.
Proof.
  intros. unfold sub. rewrite skipn_app, skipn_all, Nat.sub_diag. cbn [app skipn]. replace (length a + length b - length a) with (length b) by lia.
  rewrite firstn_app, firstn_all, Nat.sub_diag. cbn. apply app_nil_r.
Qed.

Lemma sub_split : forall (t : bytes) i j, i <= j -> j <= length t ->
  t = firstn i t ++ sub i j t ++ skipn j t /\ length (firstn i t) = i /\ length (sub i j t) = j - i.
Proof.
  intros t i j L1 L2. split; [|split; [apply firstn_length_le; lia|unfold sub; rewrite firstn_length_le; [reflexivity|rewrite skipn_length; lia]]].
  unfold sub. rewrite <- (firstn_skipn i t) at 1. f_equal. rewrite <- (firstn_skipn (j - i) (skipn i t)) at 1. f_equal.
  rewrite skipn_skipn. f_equal. lia.
Qed.

Lemma sub_sub : forall (t : bytes) a b i j, a <= i -> i <= j -> j <= b -> b <= length t -> sub (i - a) (j - a) (sub a b t) = sub i j t.
Proof.
  intros t a b i j L1 L2 L3 L4. unfold sub. rewrite skipn_firstn_comm, skipn_skipn, firstn_firstn.
  replace (Nat.min _ _) with (j - i) by lia. do 2 f_equal. lia.
Qed.

Lemma app_prefix : forall A (a x b y : list A), a ++ x = b ++ y -> length a <= length b -> exists z, b = a ++ z /\ x = z ++ y.
Proof.
  induction a as [|c a IH]; intros x b y H L; [exists b; auto|]. destruct b as [|d b]; cbn in *; [lia|]. injection H as <- H.
  destruct (IH _ _ _ H) as (z & -> & ->); [lia|]. exists z. auto.
Qed.

Lemma result_app : forall old a b, result_of old (a ++ b) = result_of old a ++ result_of old b.
Proof. intros. apply flat_map_app. Qed.

Lemma before_length : forall old rng pre, Forall (valid_op old) pre -> (forall c, In (Copy c) pre -> is_subrange_of rng c = false) ->
  before rng pre = length (result_of old pre).
Proof.
  intros old rng pre V. induction V as [|o pre V1 V2 IH]; intros H; [reflexivity|]. cbn [before].
  change (result_of old (o :: pre)) with (op_bytes old o ++ result_of old pre). rewrite app_length, <- IH by (intros c I; apply H; right; exact I).
  destruct o as [c|t]; cbn [op_bytes valid_op] in *; [|reflexivity]. rewrite (H c) by (left; reflexivity). unfold sub. rewrite firstn_length_le; [lia|].
  rewrite skipn_length. lia.
Qed.

(** A copied stretch of the old text is found where the salvaging walk says. *)
Lemma placed_text : forall old ops rng off, Forall (valid_op old) ops -> ascending ops -> rstart rng < rend rng -> placed_at ops rng off ->
  forall j, rstart rng <= j <= rend rng ->
  rend rng <= length old /\ off + (j - rstart rng) <= length (result_of old ops)
  /\ sub off (off + (j - rstart rng)) (result_of old ops) = sub (rstart rng) j old.
Proof.
  intros old ops rng off V AS NE (pre & c & post & -> & C1 & C2 & ->) j LJ.
  apply Forall_app in V. destruct V as [V1 V2]. inversion V2 as [|? ? VC V3]; subst. cbn [valid_op] in VC.
  assert (BE : before rng pre = length (result_of old pre)).
  { apply before_length; [exact V1|]. intros c' I. destruct (is_subrange_of rng c') eqn:S; [|reflexivity]. exfalso.
    unfold is_subrange_of in S. apply andb_prop in S. destruct S as [_ S]. apply Nat.leb_le in S.
    apply in_split in I. destruct I as (x & y & ->). specialize (AS x c' y c post). rewrite <- app_assoc in AS. specialize (AS eq_refl). lia. }
  split; [lia|]. rewrite BE, result_app. change (result_of old (Copy c :: post)) with (sub (rstart c) (rend c) old ++ result_of old post).
  destruct (sub_split old (rstart c) (rend c)) as (_ & _ & LC); [lia|lia|].
  assert (L : rstart rng - rstart c + (j - rstart rng) <= length (sub (rstart c) (rend c) old)) by lia.
  split; [rewrite !app_length; lia|].
  replace (sub (rstart rng) j old) with (sub (rstart rng - rstart c) (j - rstart c) (sub (rstart c) (rend c) old)) by (apply sub_sub; lia).
  unfold sub at 1. rewrite skipn_app, skipn_all2 by lia. cbn [app].
  replace (length (result_of old pre) + (rstart rng - rstart c) - length (result_of old pre)) with (rstart rng - rstart c) by lia.
  rewrite skipn_app. replace (rstart rng - rstart c - length (sub (rstart c) (rend c) old)) with 0 by lia. cbn [skipn].
  rewrite firstn_app. rewrite skipn_length.
  match goal with |- firstn ?n _ ++ firstn ?z _ = _ => replace z with 0 by lia; replace n with (j - rstart c - (rstart rng - rstart c)) by lia end.
  cbn [firstn]. rewrite app_nil_r. reflexivity.
Qed.

(** ** The walk and the tokens *)
Lemma wat_last : forall E is_ws, e_idx E = non_ws is_ws (e_toks E) -> lens (e_toks E) = length (e_text E) ->
  forall k w j o raw t, wat E is_ws k w -> j < k -> nth_error (e_idx E) j = Some (o, raw) -> nth_error (e_toks E) raw = Some t -> o + tk_len t <= snd w.
Proof.
  intros E is_ws IDX LEN k w j o raw t [(A & H1 & H2 & H3) _] L I T.
  destruct (idx_split E is_ws IDX LEN _ _ _ I) as (a & u & b & EQ & -> & -> & W & C).
  rewrite EQ, nth_error_app2, Nat.sub_diag in T by lia. injection T as ->.
  rewrite H1 in EQ. destruct (Nat.lt_ge_cases (length a) (length A)) as [G|G].
  - destruct (app_prefix _ _ _ _ _ (eq_sym EQ)) as (z & -> & EZ); [lia|]. destruct z as [|x z]; [rewrite app_nil_r in G; lia|].
    injection EZ as <- _. rewrite H2, lens_app, lens_cons. lia.
  - exfalso. destruct (app_prefix _ _ _ _ _ EQ G) as (z & -> & _). unfold solid in *. rewrite filter_app, app_length in C. lia.
Qed.

Lemma events_are : forall E fuel evs t, e_cache E = None -> peg_file E t -> parse_events E fuel = Ok evs -> evs = encs [t].
Proof.
  intros E fuel evs t NC P H. destruct (file_complete E t P) as (N & SN).
  destruct (events_mono E fuel (fuel + N) ltac:(lia)) as [Q|Q]; [congruence|]. rewrite H in Q. symmetry in Q.
  pose proof (file_ref E NC (fuel + N)) as R. rewrite (SN (fuel + N)) in R by lia. cbn [rf] in R. destruct R as (b & X & ->). congruence.
Qed.

Lemma lookup_in : forall c k v, lookup c k = Some v -> In (k, v) c.
Proof.
  induction c as [|[[a b] v'] c IH]; intros [a' b'] v H; [discriminate|]. cbn [lookup fst snd] in H. destruct ((a =? a') && (b =? b')) eqn:B.
  - injection H as <-. apply andb_prop in B. destruct B as [B1 B2]. apply Nat.eqb_eq in B1, B2. subst. left. reflexivity.
  - right. apply IH. exact H.
Qed.

Lemma no_error_exists : forall evs, existsb is_error evs = false -> no_error_node evs.
Proof.
  intros evs H fp I. assert (X : existsb is_error evs = true); [|congruence]. apply existsb_exists. exists (EvStart ERROR fp). split; [exact I|reflexivity].
Qed.

(** What the rule [k] makes of a stretch of text it makes of it in another text too, if both texts are [fine]. *)
Definition movable (L : language) (fine : bytes -> Prop) (k : nat) : Prop :=
  forall u str v toks u' v' toks', fine (u ++ str ++ v) -> fine (u' ++ str ++ v') ->
  lex (l_lexer L) (u ++ str ++ v) = Ok toks -> lex (l_lexer L) (u' ++ str ++ v') = Ok toks' ->
  let E := new_env None (l_g L) (l_ws L) (u ++ str ++ v) toks in
  let E' := new_env None (l_g L) (l_ws L) (u' ++ str ++ v') toks' in
  forall rd p q h F h1, r_pred rd = false -> length (r_args rd) = 16 -> p_cur p <= p_end p -> p_end p <= length (e_idx E) -> peg E rd k p h (Some (q, F)) h1 ->
  no_error_node (encs F) -> reaches E p q u str ->
  exists K, forall f p' s' i, K <= f -> nth_error (e_idx E') (p_cur p') = Some (length u', i) -> p_end p' = length (e_idx E') ->
  s_pred s' = false -> length (s_ctxs s') = 16 -> length (s_args s') = 16 ->
  exists prev, parse_expr E' f k p' s'
    = Ok (Some (mkPos (p_cur p' + (p_cur q - p_cur p)) (p_end p')), set_prev (set_events s' (s_events s' ++ encs F)) prev).

Definition cached_movable (L : language) (fine : bytes -> Prop) : Prop :=
  forall e k, nth_error (g_rules (l_g L)) e = Some (ECached k) -> movable L fine k.

Lemma self_contained_movable : forall L fine k, self_contained L k -> movable L fine k.
Proof.
  intros L fine k SC u str v toks u' v' toks' _ _ LO LN E E' rd p q h F h1 RP _ _ _ PG NE RE. destruct rd as [rp rc ra]. cbn [r_pred] in RP. subst rp. destruct h as [hp hr].
  set (s0 := mkSt [] hr false rc ra hp). destruct (C23_expression E k p s0 _ _ eq_refl PG) as (K & HK). exists K. intros f p' s' i LK IX PE SF LC LA.
  destruct (HK (f - K)) as (s1 & RUN & EVS & _). replace (K + (f - K)) with f in RUN by lia. cbn [s_pred s0 s_events app] in EVS.
  exact (SC u str v toks u' v' toks' LO LN f p s0 _ s1 (encs F) eq_refl RUN EVS NE RE p' s' i IX PE SF LC LA).
Qed.

Lemma self_contained_all_movable : forall L fine, cached_self_contained L -> cached_movable L fine.
Proof. intros L fine SC e k R. apply self_contained_movable. exact (SC e k R). Qed.

Section Reparse.
  Variable L : language.
  Hypothesis PR : progressing (l_lexer L).
  Notation envof c txt toks := (new_env c (l_g L) (l_ws L) txt toks).
  Variable fine : bytes -> Prop.

  Section Holds.
    Hypothesis SC : cached_movable L fine.
    Variables (old new : bytes) (old_toks new_toks : list token) (ops : list edit_op) (t : ptree) (m : cache_map).
    Hypothesis LO : lex (l_lexer L) old = Ok old_toks.
    Hypothesis LN : lex (l_lexer L) new = Ok new_toks.
    Hypothesis V : Forall (valid_op old) ops.
    Hypothesis NEW : new = result_of old ops.
    Hypothesis AS : ascending ops.
    Hypothesis FO : fine old.
    Hypothesis FN : fine new.
    Let E0 := envof None old old_toks.
    Hypothesis PT : peg_file E0 t.
    Hypothesis EN : Forall (entry_ok E0 (l_ws L) (encs [t]) ops) m.
    Let E1 := envof (Some (m, encs [t])) new new_toks.

    Let lens_old : lens old_toks = length old.
    Proof. destruct (lex_ok (l_lexer L) old PR) as (us & E & T). rewrite LO in E. injection E as <-. apply (tokenizes_lens _ PR _ _ T). Qed.
    Let lens_new : lens new_toks = length new.
    Proof. destruct (lex_ok (l_lexer L) new PR) as (us & E & T). rewrite LN in E. injection E as <-. apply (tokenizes_lens _ PR _ _ T). Qed.

    Definition holds (K : nat) (x : (nat * nat) * (nat * nat * nat)) : Prop :=
      let '((off, b), (se, ne, nt)) := x in
      forall f p i s, K <= f -> nth_error (e_idx E1) (p_cur p) = Some (off, i) -> p_end p = length (e_idx E1) -> s_pred s = false ->
      length (s_ctxs s) = 16 -> length (s_args s) = 16 ->
      exists v, parse_expr (bare E1) f b p s = Ok (Some (mkPos (p_cur p + nt) (length (e_idx E1))), set_prev (set_events s (s_events s ++ sub se (se + ne) (encs [t]))) v).

    Lemma entry_holds : forall x, entry_ok E0 (l_ws L) (encs [t]) ops x -> exists K, holds K x.
    Proof.
      intros [[off key] [[se ne] nt]] (l1 & seg & l2 & w & w1 & EV & LS & -> & -> & HE & W & W1 & SP & LW & PL).
      assert (EV' : enc None t = l1 ++ EvCached key ne :: seg ++ l2) by (rewrite <- EV; unfold encs; cbn; rewrite app_nil_r; reflexivity).
      destruct (enc_cached _ _ _ _ _ _ EV') as (G & l3 & S1 & S2 & OC).
      destruct (app_same_len _ _ _ _ _ S1) as [-> _]; [congruence|]. clear S1.
      destruct (file_runs _ _ PT) as (_ & _ & RU). destruct (RU eq_refl _ _ _ (os_head _ _ _ _ _ OC)) as (rd & wd & h & h' & RP & RA & (e & RE) & WB & PG).
      specialize (WB (Nat.le_0_l _) (le_n _)). cbn [Nat.add] in WB. cbn [Nat.add] in PG.
      specialize (SC e key RE).
      rewrite encs_toks in *.
      assert (SUB : sub (S (length l1)) (S (length l1) + ne) (encs [t]) = encs G).
      { rewrite EV, S2. change (l1 ++ EvCached key (length (encs G)) :: encs G ++ l2) with (l1 ++ [EvCached key (length (encs G))] ++ (encs G ++ l2)).
        rewrite app_assoc. replace (S (length l1)) with (length (l1 ++ [EvCached key (length (encs G))])) by (rewrite app_length; cbn; lia).
        unfold sub. rewrite skipn_app, skipn_all, Nat.sub_diag. cbn [app skipn].
        match goal with |- firstn ?n _ = _ => replace n with (length (encs G)) by lia end. rewrite firstn_app, firstn_all, Nat.sub_diag. cbn. apply app_nil_r. }
      destruct (le_lt_dec off (length new)) as [OFF|OFF].
      2:{ exists 0. intros f p i s _ IX. exfalso. destruct (idx_split E1 (l_ws L) eq_refl lens_new _ _ _ IX) as (a & u & b & EQ & _ & -> & _). cbn in EQ.
          rewrite <- lens_new, EQ, lens_app in OFF. lia. }
      assert (TX : exists u str v u' v', old = u ++ str ++ v /\ new = u' ++ str ++ v' /\ length u' = off
        /\ reaches E0 (mkPos (evtoks l1) wd) (mkPos (evtoks l1 + ntokss G) wd) u str).
      { destruct (ntokss G) as [|n] eqn:NG.
        - exists [], [], old, (firstn off new), (skipn off new). cbn [app]. rewrite firstn_skipn. split; [reflexivity|]. split; [reflexivity|].
          split; [apply firstn_length_le; exact OFF|]. left. cbn. auto.
        - assert (KN : evtoks l1 + S n <= length (e_idx E0)).
          { apply spans_end in SP. destruct W1 as [(A & A1 & A2 & A3) _]. cbn [E0 new_env e_idx]. unfold non_ws. rewrite non_ws_len.
            cbn [E0 new_env e_toks] in A1. rewrite A1. unfold solid in *. rewrite filter_app, app_length. lia. }
          destruct (wat_in E0 (l_ws L) eq_refl lens_old _ _ W) as (t0 & r0 & X0); [lia|].
          destruct (wat_idx E0 (l_ws L) eq_refl lens_old _ _ _ _ W X0) as (raw & I1 & I2 & _).
          destruct (nth_error (e_idx E0) (evtoks l1 + n)) as [[o rawl]|] eqn:I3; [|apply nth_error_None in I3; lia].
          destruct (idx_split E0 (l_ws L) eq_refl lens_old _ _ _ I3) as (a & tl & b & EQ & RL & OL & _ & CL).
          assert (I4 : nth_error (e_toks E0) rawl = Some tl) by (rewrite EQ, RL, nth_error_app2, Nat.sub_diag by lia; reflexivity).
          pose proof (wat_last E0 (l_ws L) eq_refl lens_old _ _ (evtoks l1 + n) _ _ _ W1 ltac:(lia) I3 I4) as LE.
          assert (PT1 : 0 < tk_len tl).
          { destruct (lex_ok (l_lexer L) old PR) as (us & X & TK). rewrite LO in X. injection X as <-. destruct (tokenizes_cut _ PR _ _ TK) as (_ & POS & _).
            rewrite Forall_forall in POS. apply POS. cbn in I4. eapply nth_error_In. exact I4. }
          assert (LB : snd w <= o).
          { destruct (Nat.eq_dec n 0) as [->|NZ]; [rewrite Nat.add_0_r, I1 in I3; injection I3 as <- _; lia|].
            destruct (idx_split E0 (l_ws L) eq_refl lens_old _ _ _ I1) as (a2 & t2 & b2 & EQ2 & RL2 & OL2 & WS2 & C2).
            rewrite OL, OL2. rewrite EQ in EQ2. destruct (Nat.le_gt_cases (length a2) (length a)) as [G1|G1].
            - destruct (app_prefix _ _ _ _ _ (eq_sym EQ2) G1) as (z & -> & _). rewrite lens_app. lia.
            - exfalso. destruct (app_prefix _ _ _ _ _ EQ2 ltac:(lia)) as (z & -> & _). rewrite filter_app, app_length in C2. lia. }
          set (j := o + tk_len tl) in *.
          destruct (placed_text old ops (mkRange (snd w) (snd w1)) off V AS) with (j := j) as (P1 & P2 & P3); [cbn [rstart rend]; lia|exact PL|cbn [rstart rend]; lia|].
          cbn [rstart rend] in *. rewrite <- NEW in P2, P3.
          destruct (sub_split old (snd w) j) as (D1 & D2 & D3); [lia|lia|]. destruct (sub_split new off (off + (j - snd w))) as (D1' & D2' & D3'); [lia|lia|].
          rewrite P3 in D1'. exists (firstn (snd w) old), (sub (snd w) j old), (skipn j old), (firstn off new), (skipn (off + (j - snd w)) new).
          split; [exact D1|]. split; [exact D1'|]. split; [exact D2'|]. right. cbn [p_cur]. split; [lia|]. rewrite D2.
          split; [eauto|]. exists o, rawl, tl. replace (evtoks l1 + S n - 1) with (evtoks l1 + n) by lia. split; [exact I3|]. split; [exact I4|]. rewrite app_length, D2, D3. lia. }
      destruct TX as (u & str & v & u' & v' & TO & TN & LU & RE').
      subst old. rewrite TN in LN, FN.
      destruct (SC u str v old_toks u' v' new_toks FO FN LO LN rd (mkPos (evtoks l1) wd) _ h G h' RP RA (proj1 WB) (proj2 WB) PG) as (K & HK);
        [apply no_error_exists; exact HE|exact RE'|].
      exists K. intros f p i s LK IX PE SF LC LA. rewrite SUB. unfold E1 in IX, PE. rewrite TN in IX, PE.
      destruct (HK f p s i LK) as (pv & Y); [rewrite LU; exact IX|exact PE|exact SF|exact LC|exact LA|].
      exists pv. rewrite <- TN in Y. unfold bare, twin, E1. cbn [new_env e_g e_text e_toks e_idx]. unfold new_env in Y. rewrite Y. cbn [p_cur].
      do 2 f_equal. cbn [new_env e_idx] in PE. rewrite PE. do 3 f_equal. lia.
    Qed.

    Lemma all_hold : exists K, forall x, In x m -> holds K x.
    Proof.
      assert (X : forall m0, Forall (entry_ok E0 (l_ws L) (encs [t]) ops) m0 -> exists K, forall x, In x m0 -> holds K x); [|exact (X m EN)].
      intros m0 EN0. induction EN0 as [|x m' EX EM IH]; [exists 0; intros x []|]. destruct IH as (K1 & H1). destruct (entry_holds x EX) as (K2 & H2).
      exists (K1 + K2). intros y [<-|I].
      - destruct x as [[off b] [[se ne] nt]]. intros f p i s LK. apply H2. lia.
      - specialize (H1 _ I). destruct y as [[off b] [[se ne] nt]]. intros f p i s LK. apply H1. lia.
    Qed.

    Lemma holds_cache : exists K, cache_holds E1 (fun n => n = length (e_idx E1)) K.
    Proof.
      destruct all_hold as (K & H). exists K. intros f LK. unfold entries_hold. cbn [E1 new_env e_cache].
      intros off b se ne nt p i s LU _ IX PE SF LC LA. specialize (H _ (lookup_in _ _ _ LU)). cbn [holds] in H. destruct (H f p i s LK IX PE SF LC LA) as (v & Y).
      exists v. rewrite Y, PE. reflexivity.
    Qed.
  End Holds.

  (** Texts and edits for which relexing gives the tokens of the new text. *)
  Variable safe : bytes -> list edit_op -> Prop.
  Hypothesis FINE : forall old ops new, safe old ops -> apply ops (as_text old) = Ok new -> fine old /\ fine new.
  Hypothesis RELEX : forall old toks ops new, safe old ops -> lex (l_lexer L) old = Ok toks -> apply ops (as_text old) = Ok new ->
    exists region ts, relex (l_lexer L) toks ops new = Ok (ts, region) /\ lex (l_lexer L) new = Ok ts.

  (** What parsing a file leaves behind. *)
  Lemma parse_parts : forall fuel txt f inc, parse_file L fuel txt = Ok (f, inc) ->
    f_text f = txt /\ lex (l_lexer L) txt = Ok (i_tokens inc) /\ parse_events (envof None txt (i_tokens inc)) fuel = Ok (i_events inc).
  Proof.
    intros fuel txt f inc H. unfold parse_file in H. apply bind_ok in H. destruct H as (toks & LX & H).
    apply bind_ok in H. destruct H as ([evs calls] & DP & H). apply bind_ok in H. destruct H as (f' & FN & H). injection H as <- <-.
    unfold def_parse in DP. apply bind_ok in DP. destruct DP as (fty & FT & DP). apply bind_ok in DP. destruct DP as (evs' & PE & DP).
    apply bind_ok in DP. destruct DP as (calls' & CV & DP). injection DP as -> ->.
    unfold file_new in FN. apply bind_ok in FN. destruct FN as (nodes & _ & FN). injection FN as <-. auto.
  Qed.

  (** The tree and the leaves of a parsed text. *)
  Lemma parse_tree : forall txt toks evs fuel, meaningful L -> lex (l_lexer L) txt = Ok toks ->
    parse_events (envof None txt toks) fuel = Ok evs ->
    lens toks = length txt /\ exists t, peg_file (envof None txt toks) t /\ evs = encs [t]
      /\ exists k, spans (envof None txt toks) 0 (evleaves evs) k.
  Proof.
    intros txt toks evs fuel ME LX PE. destruct (ME _ _ LX) as ((t & PT) & NB).
    destruct (lex_ok (l_lexer L) txt PR) as (ts & LX' & TK). rewrite LX in LX'. injection LX' as <-.
    pose proof (tokenizes_lens _ PR _ _ TK) as LEN. destruct (tokenizes_cut _ PR _ _ TK) as (_ & POS & _). split; [exact LEN|].
    exists t. split; [exact PT|]. pose proof (events_are (envof None txt toks) _ _ _ eq_refl PT PE) as ->. split; [reflexivity|].
    destruct (file_complete _ _ PT) as (N & SN).
    destruct (file_spans (envof None txt toks) (l_ws L) eq_refl LEN (no_ws_byte_tight _ _ _ _ _ LEN POS NB) N t (SN N (le_n _))) as [SP _].
    rewrite encs_leaves. eauto.
  Qed.

  Lemma valid_ranges : forall old ops, Forall (valid_op old) ops -> Forall (fun o => match o with Copy c => rstart c <= rend c | Insert _ => True end) ops.
  Proof. intros old ops V. eapply Forall_impl; [|exact V]. intros [c|t] H; cbn in *; [lia|exact I]. Qed.

  Lemma salvage_total : forall old toks evs fuel ops new, meaningful L -> lex (l_lexer L) old = Ok toks ->
    parse_events (envof None old toks) fuel = Ok evs -> apply ops (as_text old) = Ok new ->
    exists m, salvage evs toks (l_ws L) ops = Ok m /\ Forall (entry_ok (envof None old toks) (l_ws L) evs ops) m.
  Proof.
    intros old toks evs fuel ops new ME LX PE AP. destruct (apply_result _ _ _ AP) as [V _].
    destruct (parse_tree _ _ _ _ ME LX PE) as (LEN & t & PT & -> & k & SP).
    apply (salvage_ok (envof None old toks) (l_ws L) eq_refl LEN (encs [t]) ops (valid_ranges _ _ V)) with (kend := k); [|exact SP].
    intros l1 key n l2 EV. assert (EV' : enc None t = l1 ++ EvCached key n :: l2) by (rewrite <- EV; unfold encs; cbn; rewrite app_nil_r; reflexivity).
    destruct (enc_cached _ _ _ _ _ _ EV') as (G & l3 & -> & -> & _). rewrite app_length. lia.
  Qed.

  (** A reparse is a parse of the new text with a cache. *)
  Lemma reparse_unfold : forall fuel0 fuel old f inc ops new m, safe old ops -> parse_file L fuel0 old = Ok (f, inc) -> apply ops (as_text old) = Ok new ->
    salvage (i_events inc) (i_tokens inc) (l_ws L) ops = Ok m ->
    exists toks, lex (l_lexer L) new = Ok toks
      /\ reparse_file L fuel f inc ops
         = ('(events, calls) <- def_parse L fuel (Some (m, i_events inc)) new toks ;; f1 <- file_new new calls ;; Ok (f1, mkInc toks events))
      /\ parse_file L fuel new
         = ('(events, calls) <- def_parse L fuel None new toks ;; f1 <- file_new new calls ;; Ok (f1, mkInc toks events)).
  Proof.
    intros fuel0 fuel old f inc ops new m SF H AP SV. destruct (parse_parts _ _ _ _ H) as (TX & LX & _).
    destruct (RELEX _ _ _ _ SF LX AP) as (region & ts & RL & LN). exists ts. split; [exact LN|].
    unfold reparse_file, parse_file. rewrite TX, AP, LN. cbn [bind]. rewrite RL. cbn [bind]. rewrite SV. cbn [bind]. split; reflexivity.
  Qed.

  Lemma reparse_uncached_if : forall fuel0 fuel old f inc ops new m, safe old ops -> uncached (l_g L) -> parse_file L fuel0 old = Ok (f, inc) ->
    apply ops (as_text old) = Ok new -> salvage (i_events inc) (i_tokens inc) (l_ws L) ops = Ok m ->
    reparse_file L fuel f inc ops = parse_file L fuel new.
  Proof.
    intros fuel0 fuel old f inc ops new m SF U H AP SV. destruct (reparse_unfold fuel0 fuel _ _ _ _ _ _ SF H AP SV) as (ts & _ & -> & ->).
    unfold def_parse. rewrite (events_uncached (new_env (Some (m, i_events inc)) (l_g L) (l_ws L) new ts) U). reflexivity.
  Qed.

  Lemma reparse_uncached : forall fuel0 fuel old f inc ops new, safe old ops -> uncached (l_g L) -> meaningful L -> parse_file L fuel0 old = Ok (f, inc) ->
    apply ops (as_text old) = Ok new -> reparse_file L fuel f inc ops = parse_file L fuel new.
  Proof.
    intros fuel0 fuel old f inc ops new SF U ME H AP. destruct (parse_parts _ _ _ _ H) as (TX & LX & PE).
    destruct (salvage_total _ _ _ _ _ _ ME LX PE AP) as (m & SV & _). eapply reparse_uncached_if; [exact SF|exact U|exact H|exact AP|exact SV].
  Qed.

  Lemma reparse_applies : forall fuel f inc ops x, reparse_file L fuel f inc ops = Ok x ->
    exists new m, apply ops (as_text (f_text f)) = Ok new /\ f_text (fst x) = new
      /\ salvage (i_events inc) (i_tokens inc) (l_ws L) ops = Ok m.
  Proof.
    intros fuel f inc ops x H. unfold reparse_file in H. apply bind_ok in H. destruct H as (new & AP & H).
    apply bind_ok in H. destruct H as ([ts reg] & RL & H). apply bind_ok in H. destruct H as (m & SV & H).
    apply bind_ok in H. destruct H as ([evs calls] & DP & H). apply bind_ok in H. destruct H as (f1 & FN & H). injection H as <-.
    exists new, m. split; [exact AP|]. split; [|exact SV]. unfold file_new in FN. apply bind_ok in FN. destruct FN as (nodes & _ & FN). injection FN as <-. reflexivity.
  Qed.

  Lemma reparse_cached : forall q qa fuel0 fuel old f inc ops x, safe old ops -> meaningful L -> quiet (l_g L) q qa -> cached_movable L fine -> ascending ops ->
    parse_file L fuel0 old = Ok (f, inc) -> reparse_file L fuel f inc ops = Ok x ->
    exists new fuel1, apply ops (as_text old) = Ok new /\ forall more, parse_file L (fuel1 + more) new = Ok x.
  Proof.
    intros q qa fuel0 fuel old f inc ops x SF ME QU SC AS H R. destruct (reparse_applies _ _ _ _ _ R) as (new & m & AP & _ & SV).
    destruct (parse_parts _ _ _ _ H) as (TX & LX & PE). rewrite TX in AP. exists new.
    destruct (parse_tree _ _ _ _ ME LX PE) as (LEN & t & PT & EV & _).
    destruct (salvage_total _ _ _ _ _ _ ME LX PE AP) as (m' & SV' & EN). rewrite SV in SV'. injection SV' as <-.
    destruct (reparse_unfold fuel0 fuel _ _ _ _ _ _ SF H AP SV) as (ts & LN & RE & _). rewrite RE in R. clear RE.
    destruct (apply_result _ _ _ AP) as [V NEW]. rewrite EV in EN.
    destruct (FINE _ _ _ SF AP) as [FO FN].
    destruct (holds_cache SC old new (i_tokens inc) ts ops t m LX LN V NEW AS FO FN PT EN) as (K & HK).
    exists (K + fuel). split; [exact AP|]. intros more.
    apply bind_ok in R. destruct R as ([evs calls] & DP & R). unfold def_parse in DP. apply bind_ok in DP. destruct DP as (fty & FT & DP).
    apply bind_ok in DP. destruct DP as (evs' & PE1 & DP). apply bind_ok in DP. destruct DP as (calls' & CV & DP). injection DP as -> ->.
    rewrite EV in PE1. pose proof (events_sim (l_g L) q qa (envof (Some (m, encs [t])) new ts) K fuel evs eq_refl QU HK PE1) as PE2.
    assert (PF : parse_file L (K + fuel) new = Ok x).
    { unfold parse_file. rewrite LN. cbn [bind]. unfold def_parse. rewrite FT. cbn [bind]. unfold bare, twin in PE2. cbn [new_env e_g e_text e_toks e_idx] in PE2.
      unfold new_env. rewrite PE2. cbn [bind]. rewrite CV. cbn [bind]. exact R. }
    destruct (parse_file_mono L (K + fuel) (K + fuel + more) new ltac:(lia)) as [Q|Q]; congruence.
  Qed.

  (** Every edit of a history is safe for the text it is made to. *)
  Fixpoint all_safe (old : bytes) (history : list (list edit_op)) : Prop :=
    match history with
    | [] => True
    | ops :: rest => safe old ops /\ forall new, apply ops (as_text old) = Ok new -> all_safe new rest
    end.

  Lemma edits_uncached : forall fuel, uncached (l_g L) -> forall history old f inc x, all_safe old history -> parse_file L fuel old = Ok (f, inc) ->
    edit_all L fuel (f, inc) history = Ok x -> exists new, apply_all history old = Ok new /\ parse_file L fuel new = Ok x.
  Proof.
    intros fuel U. induction history as [|ops rest IH]; intros old f inc x AF H E; cbn [edit_all apply_all fst snd all_safe] in *.
    - injection E as <-. eauto.
    - destruct AF as [SF AF]. apply bind_ok in E. destruct E as ([f1 inc1] & R & E). destruct (reparse_applies _ _ _ _ _ R) as (new & m & AP & _ & SV).
      destruct (parse_parts _ _ _ _ H) as (TX & _ & _). rewrite TX in AP. rewrite AP. cbn [bind].
      rewrite (reparse_uncached_if fuel fuel old f inc ops new m SF U H AP SV) in R. eapply IH; [exact (AF _ AP)|exact R|exact E].
  Qed.

  Lemma edits_cached : forall q qa fuel, meaningful L -> quiet (l_g L) q qa -> cached_movable L fine ->
    forall history fuel0 old f inc x, all_safe old history -> Forall ascending history -> parse_file L fuel0 old = Ok (f, inc) ->
    edit_all L fuel (f, inc) history = Ok x -> exists new fuel1, apply_all history old = Ok new /\ forall more, parse_file L (fuel1 + more) new = Ok x.
  Proof.
    intros q qa fuel ME QU SC. induction history as [|ops rest IH]; intros fuel0 old f inc x AF AS H E; cbn [edit_all apply_all fst snd all_safe] in *.
    - injection E as <-. exists old, fuel0. split; [reflexivity|]. intros more. destruct (parse_file_mono L fuel0 (fuel0 + more) old ltac:(lia)) as [Q|Q]; congruence.
    - destruct AF as [SF AF]. inversion AS as [|? ? A1 A2]; subst. apply bind_ok in E. destruct E as ([f1 inc1] & R & E).
      destruct (reparse_cached _ _ _ _ _ _ _ _ _ SF ME QU SC A1 H R) as (new & fuel1 & AP & PF). rewrite AP. cbn [bind].
      eapply (IH (fuel1 + 0)); [exact (AF _ AP)|exact A2|apply PF|exact E].
  Qed.
End Reparse.

(** One byte of lookahead makes all edits safe. *)
Lemma one_byte_safe : forall lx, progressing lx -> one_byte_lookahead lx -> forall old toks ops new, True -> lex lx old = Ok toks ->
  apply ops (as_text old) = Ok new -> exists region ts, relex lx toks ops new = Ok (ts, region) /\ lex lx new = Ok ts.
Proof. intros lx PR ONE old toks ops new _ LX AP. exact (C18_relex _ _ _ _ _ PR ONE LX AP). Qed.

Lemma all_true : forall history old, all_safe (fun _ _ => True) old history.
Proof. induction history as [|ops rest IH]; intros old; cbn [all_safe]; [exact I|]. split; [exact I|]. intros new _. apply IH. Qed.
