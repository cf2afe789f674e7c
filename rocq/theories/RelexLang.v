(** Lexical rules whose tokens are determined by the characters up to one after their end. *)
From Coq Require Import List Arith NArith Bool Lia.
From Verif Require Import Base BaseFacts TextModel EditModel LexModel LexSpec LexProofs TextSpec TextProofs ScanModel ScanSpec ScanProofs
  RegexModel RegexSpec RegexProofs RegexLang PropsScan PropsRegex.
Import ListNotations.

Definition first_end (U : tables) (r : regex) (s : list bytes) : option (list bytes) := hd_error (ends U r s).

(** ** Sets without common characters *)
Definition memn (b : nat) (l : list nat) : bool := existsb (Nat.eqb b) l.
Definition apart (k1 k2 : cset) : bool :=
  match k1, k2 with
  | Lit b, Lit c => negb (b =? c)
  | Lit b, Not bs | Not bs, Lit b => memn b bs
  | Lit b, Cls k | Cls k, Lit b => (b <? 128) && negb (ascii_U k [b])
  | _, _ => false
  end.
Definition disjoint (l1 l2 : list cset) : bool := forallb (fun a => forallb (apart a) l2) l1.

Lemma eqb_self : forall c, list_eqb Nat.eqb c c = true.
Proof. induction c as [|x c IH]; [reflexivity|]. cbn. rewrite Nat.eqb_refl. exact IH. Qed.

Lemma ascii_agree : forall U k b, tables_ok U -> b < 128 -> U k [b] = ascii_U k [b].
Proof.
  intros U k b T L. pose proof (t_ascii U T k b L) as A. pose proof (t_ascii ascii_U ascii_U_ok k b L) as B.
  destruct (U k [b]), (ascii_U k [b]); try reflexivity; [symmetry|]; tauto.
Qed.

Lemma apart_ok : forall U k1 k2 c, tables_ok U -> apart k1 k2 = true -> in_set U k1 c = true -> in_set U k2 c = true -> False.
Proof.
  intros U k1 k2 c T A I J.
  assert (LN : forall b bs, memn b bs = true -> in_set U (Lit b) c = true -> in_set U (Not bs) c = true -> False).
  { intros b bs M X Y. cbn [in_set] in *. apply list_eqb_nat in X. subst c. apply negb_true_iff in Y. apply existsb_exists in M. destruct M as (x & IX & EX).
    apply Nat.eqb_eq in EX. subst x. assert (Z : existsb (fun b0 => list_eqb Nat.eqb [b] [b0]) bs = true) by (apply existsb_exists; exists b; split; [exact IX|apply eqb_self]). congruence. }
  assert (LC : forall b k, (b <? 128) && negb (ascii_U k [b]) = true -> in_set U (Lit b) c = true -> in_set U (Cls k) c = true -> False).
  { intros b k M X Y. cbn [in_set] in *. apply list_eqb_nat in X. subst c. apply andb_true_iff in M. destruct M as [L M]. apply Nat.ltb_lt in L.
    rewrite (ascii_agree U k b T L) in Y. rewrite Y in M. discriminate M. }
  destruct k1 as [b|bs|k], k2 as [b'|bs'|k']; cbn [apart] in A; try discriminate A; eauto.
  cbn [in_set] in I, J. apply list_eqb_nat in I. apply list_eqb_nat in J. subst c. injection J as ->. rewrite Nat.eqb_refl in A. discriminate A.
Qed.

Lemma disjoint_ok : forall U l1 l2 c, tables_ok U -> disjoint l1 l2 = true -> (exists k, In k l1 /\ in_set U k c = true) ->
  (exists k, In k l2 /\ in_set U k c = true) -> False.
Proof.
  intros U l1 l2 c T D (k1 & I1 & S1) (k2 & I2 & S2). unfold disjoint in D. rewrite forallb_forall in D. specialize (D _ I1).
  rewrite forallb_forall in D. exact (apart_ok U k1 k2 c T (D _ I2) S1 S2).
Qed.

(** ** Expressions no match of which continues another *)
Definition prefix_free (U : tables) (r : regex) : Prop := forall x y p q, matches U r x -> matches U r y -> x ++ p = y ++ q -> x = y /\ p = q.

Fixpoint pf (r : regex) : bool :=
  match r with
  | Eps | Chr _ => true
  | Star _ => false
  | Alt a b => pf a && pf b && negb (nullable a) && negb (nullable b) && disjoint (firsts a) (firsts b)
  | Seq a b =>
      match a with
      | Star a' => pf a' && pf b && negb (nullable a') && negb (nullable b) && disjoint (firsts a') (firsts b)
      | Seq a1 (Star a2) => pf a1 && (pf a2 && pf b && negb (nullable a2) && negb (nullable b) && disjoint (firsts a2) (firsts b))
      | _ => pf a && pf b
      end
  end.

Lemma first_char : forall U r x, nullable r = false -> matches U r x -> exists c x', x = c :: x' /\ exists k, In k (firsts r) /\ in_set U k c = true.
Proof.
  intros U r [|c x] N M; [rewrite (nullable_ok _ _ M) in N; discriminate N|]. exists c, x. split; [reflexivity|]. eapply firsts_ok; eauto.
Qed.

Lemma seq_free : forall U a b, prefix_free U a -> prefix_free U b -> prefix_free U (Seq a b).
Proof.
  intros U a b A B x y p q MX MY E. apply matches_seq in MX. destruct MX as (x1 & x2 & -> & X1 & X2). apply matches_seq in MY. destruct MY as (y1 & y2 & -> & Y1 & Y2).
  rewrite <- !app_assoc in E. destruct (A _ _ _ _ X1 Y1 E) as [-> E2]. destruct (B _ _ _ _ X2 Y2 E2) as [-> ->]. auto.
Qed.

Lemma star_free : forall U a b, tables_ok U -> prefix_free U a -> prefix_free U b -> nullable a = false -> nullable b = false ->
  disjoint (firsts a) (firsts b) = true -> prefix_free U (Seq (Star a) b).
Proof.
  intros U a b T A B NA NB D.
  assert (CL : forall x y p q, matches U a x -> matches U b y -> x ++ p = y ++ q -> False).
  { intros x y p q X Y E. destruct (first_char U a x NA X) as (c & x' & -> & F). destruct (first_char U b y NB Y) as (d & y' & -> & G).
    cbn in E. injection E as <- _. exact (disjoint_ok U _ _ c T D F G). }
  assert (H : forall x, matches U (Star a) x -> forall u y v p q, matches U b u -> matches U (Star a) y -> matches U b v -> x ++ u ++ p = y ++ v ++ q -> x ++ u = y ++ v /\ p = q).
  { intros x M. remember (Star a) as r eqn:ER. revert ER. induction M as [| | | | |a'|a' x1 x2 M1 _ M2 IH]; intros ER; try discriminate ER; injection ER as ->; intros u y v p q MU MY MV E.
    - cbn [app] in *. destruct y as [|c y].
      + cbn [app] in *. destruct (B _ _ _ _ MU MV E) as [-> ->]. auto.
      + exfalso. destruct (star_round _ _ _ MY) as (y1 & y2 & EY & _ & Y1 & _); [discriminate|]. rewrite EY in E. rewrite <- app_assoc in E. symmetry in E. exact (CL _ _ _ _ Y1 MU E).
    - destruct y as [|c y].
      + exfalso. cbn [app] in E. rewrite <- app_assoc in E. exact (CL _ _ _ _ M1 MV E).
      + destruct (star_round _ _ _ MY) as (y1 & y2 & EY & _ & Y1 & Y2); [discriminate|]. rewrite EY in *. rewrite <- !app_assoc in E.
        destruct (A _ _ _ _ M1 Y1 E) as [-> E2]. destruct (IH eq_refl _ _ _ _ _ MU Y2 MV E2) as [E3 ->]. split; [|reflexivity]. rewrite <- !app_assoc, E3. reflexivity. }
  intros x y p q MX MY E. apply matches_seq in MX. destruct MX as (x1 & x2 & -> & X1 & X2). apply matches_seq in MY. destruct MY as (y1 & y2 & -> & Y1 & Y2).
  rewrite <- !app_assoc in E. eapply H; eauto.
Qed.

Lemma pf_ok : forall U, tables_ok U -> forall r, pf r = true -> prefix_free U r.
Proof.
  intros U T. assert (H : forall n r, (fix sz r := match r with Eps | Chr _ => 1 | Seq a b | Alt a b => S (sz a + sz b) | Star a => S (sz a) end) r <= n -> pf r = true -> prefix_free U r).
  2:{ intros r. apply (H _ r (le_n _)). }
  induction n as [|n IH]; intros r L P; [destruct r; cbn in L; lia|].
  assert (ST : forall a b, (fix sz r := match r with Eps | Chr _ => 1 | Seq a b | Alt a b => S (sz a + sz b) | Star a => S (sz a) end) a <= n ->
     (fix sz r := match r with Eps | Chr _ => 1 | Seq a b | Alt a b => S (sz a + sz b) | Star a => S (sz a) end) b <= n ->
     pf a && pf b && negb (nullable a) && negb (nullable b) && disjoint (firsts a) (firsts b) = true ->
     prefix_free U a /\ prefix_free U b /\ nullable a = false /\ nullable b = false /\ disjoint (firsts a) (firsts b) = true).
  { intros a b LA LB Q. rewrite !andb_true_iff, !negb_true_iff in Q. destruct Q as [[[[Q1 Q2] Q3] Q4] Q5]. auto 10. }
  destruct r as [|k|a b|a b|a]; [| | | |discriminate P].
  - intros x y p q X Y E. inversion X; inversion Y; subst. auto.
  - intros x y p q X Y E. inversion X; inversion Y; subst. cbn in E. injection E as -> ->. auto.
  - cbn [pf] in P. cbn in L.
    assert (PL : pf a && pf b = true -> prefix_free U (Seq a b)).
    { intros Q. apply andb_true_iff in Q. destruct Q as [Q1 Q2]. apply seq_free; apply IH; try assumption; lia. }
    destruct a as [|k|a1 a2|a1 a2|a']; try exact (PL P).
    + destruct a2 as [|k|c d|c d|a']; try exact (PL P). apply andb_true_iff in P. destruct P as [P1 P].
      cbn in L. destruct (ST a' b ltac:(lia) ltac:(lia) P) as (A & B & NA & NB & D). pose proof (seq_free U a1 _ (IH a1 ltac:(lia) P1) (star_free U a' b T A B NA NB D)) as F.
      intros x y p q X Y E.
      assert (RE : forall z, matches U (Seq (Seq a1 (Star a')) b) z -> matches U (Seq a1 (Seq (Star a') b)) z).
      { intros z M. apply matches_seq in M. destruct M as (z1 & z2 & -> & M1 & M2). apply matches_seq in M1. destruct M1 as (z3 & z4 & -> & M3 & M4).
        rewrite <- app_assoc. constructor; [exact M3|]. constructor; assumption. }
      exact (F _ _ _ _ (RE _ X) (RE _ Y) E).
    + cbn in L. destruct (ST a' b ltac:(lia) ltac:(lia) P) as (A & B & NA & NB & D). exact (star_free U a' b T A B NA NB D).
  - cbn [pf] in P. cbn in L. destruct (ST a b ltac:(lia) ltac:(lia) P) as (A & B & NA & NB & D).
    assert (CL : forall x y p q, matches U a x -> matches U b y -> x ++ p = y ++ q -> False).
    { intros x y p q X Y E. destruct (first_char U a x NA X) as (c & x' & -> & F). destruct (first_char U b y NB Y) as (d & y' & -> & G).
      cbn in E. injection E as <- _. exact (disjoint_ok U _ _ c T D F G). }
    intros x y p q X Y E. inversion X; inversion Y; subst; [eapply A; eauto| | |eapply B; eauto]; exfalso; eauto.
Qed.

(** ** The end of a match that stops before the end of [w] *)
Definition steady (U : tables) (r : regex) : Prop :=
  forall w a b v, v <> [] -> first_end U r (w ++ a) = Some (v ++ a) -> first_end U r (w ++ b) = Some (v ++ b).

Lemma first_in : forall U r s e, first_end U r s = Some e -> exists cs, s = cs ++ e /\ matches U r cs.
Proof.
  intros U r s e H. apply in_ends. unfold first_end in H. destruct (ends U r s) as [|x l]; [discriminate H|]. cbn in H. injection H as ->. left. reflexivity.
Qed.

Lemma free_first : forall U r cs e, prefix_free U r -> matches U r cs -> first_end U r (cs ++ e) = Some e.
Proof.
  intros U r cs e P M. assert (I : In e (ends U r (cs ++ e))) by (apply in_ends; eauto). unfold first_end.
  destruct (ends U r (cs ++ e)) as [|x l] eqn:EE; [destruct I|]. cbn. f_equal.
  assert (J : In x (ends U r (cs ++ e))) by (rewrite EE; left; reflexivity). apply in_ends in J. destruct J as (ds & E & M'). symmetry. exact (proj2 (P _ _ _ _ M M' E)).
Qed.

Lemma free_steady : forall U r, prefix_free U r -> steady U r.
Proof.
  intros U r P w a b v NV H. destruct (first_in _ _ _ _ H) as (cs & E & M). rewrite app_assoc in E. apply app_inv_tail in E. subst w.
  rewrite <- app_assoc. apply free_first; assumption.
Qed.

Fixpoint dropw (U : tables) (k : cset) (s : list bytes) : list bytes :=
  match s with c :: s' => if in_set U k c then dropw U k s' else s | [] => [] end.

Lemma dropw_le : forall U k s, length (dropw U k s) <= length s.
Proof. intros U k. induction s as [|c s IH]; cbn; [lia|]. destruct (in_set U k c); cbn; lia. Qed.

Lemma runs_chr : forall U k fuel s, length s <= fuel -> hd_error (runs (ends U (Chr k)) fuel s) = Some (dropw U k s).
Proof.
  intros U k. induction fuel as [|fuel IH]; intros s L.
  - destruct s; [reflexivity|cbn in L; lia].
  - destruct s as [|c s]; [reflexivity|]. cbn [runs ends dropw]. destruct (in_set U k c) eqn:I; [|reflexivity].
    cbn [flat_map]. cbn [length]. rewrite (proj2 (Nat.ltb_lt _ _) (Nat.lt_succ_diag_r _)). rewrite app_nil_r.
    specialize (IH s ltac:(cbn in L; lia)). cbn [ends] in IH. revert IH. generalize (runs (fun s0 : list bytes => match s0 with [] => [] | c0 :: s' => if in_set U k c0 then [s'] else [] end) fuel s). intros R IH. destruct R as [|x l]; [discriminate IH|]. exact IH.
Qed.

Lemma star_first : forall U k s, first_end U (Star (Chr k)) s = Some (dropw U k s).
Proof. intros U k s. unfold first_end. cbn [ends]. apply runs_chr. lia. Qed.

Lemma dropw_app : forall U k w a v, v <> [] -> dropw U k (w ++ a) = v ++ a -> dropw U k w = v.
Proof.
  intros U k. induction w as [|c w IH]; intros a v NV H.
  - exfalso. cbn [app] in H. pose proof (dropw_le U k a) as L. rewrite H, app_length in L. destruct v; [congruence|cbn in L; lia].
  - cbn [app dropw] in *. destruct (in_set U k c); [eauto|]. change (c :: w ++ a) with ((c :: w) ++ a) in H. apply app_inv_tail in H. exact H.
Qed.

Lemma app_dropw : forall U k w b, dropw U k w <> [] -> dropw U k (w ++ b) = dropw U k w ++ b.
Proof. intros U k. induction w as [|c w IH]; intros b NE; [cbn in NE; congruence|]. cbn [app dropw] in *. destruct (in_set U k c); [auto|reflexivity]. Qed.

Lemma star_steady : forall U k, steady U (Star (Chr k)).
Proof.
  intros U k w a b v NV H. rewrite star_first in *. injection H as H. apply dropw_app in H; [|exact NV]. f_equal. rewrite app_dropw by congruence. rewrite H. reflexivity.
Qed.

Lemma seq_first : forall U a b s, prefix_free U a -> first_end U (Seq a b) s = match first_end U a s with Some e => first_end U b e | None => None end.
Proof.
  intros U a b s P. unfold first_end. cbn [ends]. destruct (ends U a s) as [|e l] eqn:EE; [reflexivity|]. cbn [hd_error].
  assert (ALL : forall x, In x (e :: l) -> x = e).
  { intros x I. rewrite <- EE in I. apply in_ends in I. destruct I as (cs & E & M). assert (J : In e (ends U a s)) by (rewrite EE; left; reflexivity).
    apply in_ends in J. destruct J as (ds & E' & M'). rewrite E in E'. exact (proj2 (P _ _ _ _ M M' E')). }
  clear EE. cbn [flat_map]. destruct (ends U b e) as [|x m] eqn:EB; [|reflexivity]. cbn [app hd_error].
  assert (Z : flat_map (ends U b) l = []).
  { induction l as [|y l IH]; [reflexivity|]. cbn [flat_map]. rewrite (ALL y (or_intror (or_introl eq_refl))), EB. cbn [app]. apply IH. intros z [<-|I]; apply ALL; [left|right; right]; auto. }
  rewrite Z. reflexivity.
Qed.

Lemma seq_steady : forall U a b, prefix_free U a -> steady U b -> steady U (Seq a b).
Proof.
  intros U a b P SB w x y v NV H. rewrite (seq_first U a b (w ++ x) P) in H. rewrite (seq_first U a b (w ++ y) P). destruct (first_end U a (w ++ x)) as [e|] eqn:E; [|discriminate H].
  destruct (first_in _ _ _ _ H) as (cs & -> & _). rewrite app_assoc in E. apply (free_steady U a P w x y) in E; [|destruct cs; [exact NV|discriminate]].
  rewrite E. rewrite app_assoc in H. exact (SB _ _ _ _ NV H).
Qed.

Fixpoint gr (r : regex) : bool :=
  pf r || match r with Seq a b => pf a && gr b | Star (Chr _) => true | _ => false end.

Lemma gr_steady : forall U, tables_ok U -> forall r, gr r = true -> steady U r.
Proof.
  intros U T. induction r as [|k|a IHa b IHb|a IHa b IHb|a IHa]; intros G.
  - apply free_steady, pf_ok; [exact T|reflexivity].
  - apply free_steady, pf_ok; [exact T|reflexivity].
  - cbn [gr] in G. apply orb_true_iff in G. destruct G as [G|G]; [apply free_steady, pf_ok; assumption|]. apply andb_true_iff in G. destruct G as [G1 G2].
    apply seq_steady; [apply pf_ok; assumption|auto].
  - cbn [gr] in G. rewrite orb_false_r in G. apply free_steady, pf_ok; assumption.
  - destruct a; cbn in G; try discriminate G. apply star_steady.
Qed.

(** ** In bytes *)
Lemma concat_pos : forall v : list bytes, Forall (fun c => c <> []) v -> v <> [] -> 0 < length (concat v).
Proof. intros [|c v] F NV; [congruence|]. inversion F; subst. destruct c; [congruence|]. cbn. lia. Qed.

Lemma split_at : forall (cs rest W A : list bytes), Forall (fun c => c <> []) (W ++ A) -> cs ++ rest = W ++ A -> length (concat cs) < length (concat W) ->
  exists v, v <> [] /\ W = cs ++ v /\ rest = v ++ A.
Proof.
  induction cs as [|c cs IH]; intros rest W A F E L; cbn [app] in E.
  - exists W. subst rest. split; [intros ->; cbn in L; lia|auto].
  - destruct W as [|d W]; [cbn in L; lia|]. cbn [app] in *. injection E as <- E. inversion F; subst. cbn [concat] in L. rewrite !app_length in L.
    destruct (IH rest W A) as (v & NV & -> & ->); [assumption|exact E|lia|]. exists v. auto.
Qed.

Section At.
  Variables (U : tables) (w a b : bytes).
  Hypothesis UW : utf8 w.
  Hypothesis UA : utf8 a.
  Hypothesis UB : utf8 b.

  Lemma find_steady : forall r m, steady U r -> find U r (w ++ a) = Some m -> m < length w -> find U r (w ++ b) = Some m.
  Proof.
    intros r m S F L. unfold find in *. fold (first_end U r (chars (w ++ a))) in F. fold (first_end U r (chars (w ++ b))).
    rewrite (chars_app w a UW UA) in F. rewrite (chars_app w b UW UB). destruct (first_end U r (chars w ++ chars a)) as [e|] eqn:E; [|discriminate F].
    cbn in F. injection F as F. destruct (first_in _ _ _ _ E) as (cs & EC & M).
    assert (LC : length (concat cs) = m).
    { rewrite <- F. assert (X : w ++ a = concat cs ++ concat e) by (pose proof (f_equal (@concat nat) EC) as X; rewrite !concat_app, !chars_all in X; exact X).
      rewrite X, app_length. lia. }
    destruct (split_at cs e (chars w) (chars a)) as (v & NV & EW & EV); [rewrite <- (chars_app w a UW UA); apply chars_full|congruence|rewrite chars_all; lia|].
    rewrite EV in E. rewrite (S _ _ _ _ NV E). cbn. f_equal. pose proof (chars_all w) as X. rewrite EW, concat_app in X. rewrite concat_app, chars_all, !app_length. rewrite <- X, app_length. lia.
  Qed.

  (** A match that fits into [w] is one in any text that starts with [w]. *)
  Lemma find_inside : forall r cs v, chars w = cs ++ v -> matches U r cs -> forall x, utf8 x -> find U r (w ++ x) <> None.
  Proof. intros r cs v E M x UX F. rewrite find_none in F. apply (F cs (v ++ chars x)); [|exact M]. rewrite (chars_app w x UW UX), E, app_assoc. reflexivity. Qed.

  Lemma find_first : forall r x, utf8 x -> nullable r = false -> w <> [] -> find U r (w ++ x) <> None ->
    exists c W, chars w = c :: W /\ exists k, In k (firsts r) /\ in_set U k c = true.
  Proof.
    intros r x UX N NW F. destruct (find U r (w ++ x)) as [m|] eqn:E; [|congruence]. destruct (find_some _ _ _ _ E) as (cs & rest & EC & M & _).
    destruct (first_char U r cs N M) as (c & cs' & -> & K). rewrite (chars_app w x UW UX) in EC. destruct (chars w) as [|d W] eqn:EW.
    - exfalso. apply NW. rewrite <- (chars_all w), EW. reflexivity.
    - injection EC as -> _. eauto.
  Qed.
End At.

(** One character of a set, or any number of them. *)
Definition simple (r : regex) : bool :=
  match r with
  | Chr _ => true
  | Seq (Chr _) (Star (Chr _)) => true
  | _ => false
  end.
(** All the characters of a match are in class [k]. *)
Fixpoint within (k : cls) (r : regex) : bool :=
  match r with
  | Chr (Lit b) => (b <? 128) && ascii_U k [b]
  | Seq a b => within k a && within k b
  | _ => false
  end.

Lemma within_ok : forall U k r, tables_ok U -> within k r = true -> forall cs, matches U r cs -> Forall (fun c => U k c = true) cs.
Proof.
  intros U k r T. induction r as [|[b|bs|k']|a IHa b IHb|a IHa b IHb|a IHa]; intros W cs M; try discriminate W.
  - cbn [within] in W. apply andb_true_iff in W. destruct W as [L W]. apply Nat.ltb_lt in L. apply matches_lit in M. subst cs. constructor; [|constructor].
    rewrite (ascii_agree U k b T L). exact W.
  - cbn [within] in W. apply andb_true_iff in W. destruct W as [W1 W2]. apply matches_seq in M. destruct M as (x & y & -> & A & B). apply Forall_app. auto.
Qed.

Lemma simple_steady : forall U r, tables_ok U -> simple r = true -> steady U r.
Proof.
  intros U r T S. apply gr_steady; [exact T|]. destruct r as [|k|a b|a b|a]; try discriminate S; [reflexivity|].
  destruct a; try discriminate S. destruct b as [| | | |b]; try discriminate S. destruct b; try discriminate S. reflexivity.
Qed.

Lemma simple_none : forall U r w a b, simple r = true -> utf8 w -> utf8 a -> utf8 b -> w <> [] -> find U r (w ++ a) = None -> find U r (w ++ b) = None.
Proof.
  intros U r w a b S UW UA UB NW F. destruct (find U r (w ++ b)) as [m|] eqn:E; [|reflexivity]. exfalso.
  assert (N : nullable r = false). { destruct r as [|k|x y|x y|x]; try discriminate S; [reflexivity|]. destruct x; try discriminate S. reflexivity. }
  destruct (find_first U w UW r b UB N NW) as (c & W & EW & k & K & I); [congruence|].
  refine (find_inside U w UW r [c] W EW _ a UA F). destruct r as [|k'|x y|x y|x]; try discriminate S.
  - destruct K as [<-|[]]. constructor. exact I.
  - destruct x as [|k1| | |]; try discriminate S. destruct y as [| | | |y]; try discriminate S. cbn in K. destruct K as [<-|[]].
    apply (m_seq U (Chr k1) (Star y) [c] []); [constructor; exact I|constructor].
Qed.

(** ** Rules *)
Definition alone (rules : list lex_rule) (r : lex_rule) : bool :=
  forallb (fun r' => (r_ty r' =? r_ty r) || disjoint (firsts (r_re r')) (firsts (r_re r))) rules.
Definition covered (rules : list lex_rule) (r : lex_rule) : bool :=
  pf (r_re r) && existsb (fun r' => match r_f r', r_re r' with
    | None, Seq (Chr (Cls k)) (Star (Chr (Cls k'))) => match k, k' with Word, Word => within Word (r_re r) | _, _ => false end
    | _, _ => false end) rules.
Definition local_rule (rules : list lex_rule) (r : lex_rule) : bool :=
  match r_f r with
  | None => negb (nullable (r_re r)) && (simple (r_re r) || (gr (r_re r) && alone rules r) || covered rules r)
  | Some _ => true
  end.
Definition nodupb (l : list nat) : bool := (fix go l := match l with [] => true | x :: r => negb (memn x r) && go r end) l.
Definition local_rules (rules : list lex_rule) : bool := forallb (local_rule rules) rules && nodupb (map r_ty rules).

Lemma nodupb_ok : forall l, nodupb l = true -> NoDup l.
Proof.
  induction l as [|x l IH]; intros H; [constructor|]. unfold nodupb in H. apply andb_true_iff in H. destruct H as [A B]. constructor; [|exact (IH B)].
  intros I. apply negb_true_iff in A. assert (Z : memn x l = true) by (apply existsb_exists; exists x; split; [exact I|apply Nat.eqb_refl]). congruence.
Qed.

Lemma same_type : forall rules (r r' : lex_rule), NoDup (map r_ty rules) -> In r rules -> In r' rules -> r_ty r' = r_ty r -> r' = r.
Proof.
  induction rules as [|x l IH]; intros r r' N I J E; [destruct I|]. cbn [map] in N. inversion N as [|? ? NI N']; subst. destruct I as [->|I], J as [->|J]; [reflexivity| | |].
  - exfalso. apply NI. rewrite <- E. apply in_map. exact J.
  - exfalso. apply NI. rewrite E. apply in_map. exact I.
  - eauto.
Qed.

(** ** Raw strings *)
Lemma occurs_local : forall c p x y j, occurs c (p ++ x) j -> j + length c <= length p -> occurs c (p ++ y) j.
Proof.
  intros c p x y j (l & r & E & L) LE. subst j. rewrite app_assoc in E. destruct (app_split p x (l ++ c) r E) as (m & -> & _); [rewrite app_length; lia|].
  exists l, (m ++ y). rewrite <- !app_assoc. auto.
Qed.

Lemma raw_same : forall U r w a b m, r_f r = Some parse_raw_string -> r_re r = raw_re \/ r_re r = raw_plus_re -> utf8 w -> utf8 a -> utf8 b ->
  try_rule U (w ++ a) r = Ok (Some m) -> m < length w -> try_rule U (w ++ b) r = Ok (Some m).
Proof.
  intros U r w a b m RF RE UW UA UB T L. unfold try_rule in *. rewrite RF in *. destruct (find U (r_re r) (w ++ a)) as [q|] eqn:F; [|discriminate T].
  destruct (find_some _ _ _ _ F) as (cs & re & EC & M & _). 
  assert (NN : exists n, cs = opening_chars n /\ (r_re r = raw_re \/ (r_re r = raw_plus_re /\ 0 < n))).
  { destruct RE as [E|E]; rewrite E in M; [apply raw_matches in M; destruct M as (n & ->); eauto|]. apply raw_plus_matches in M. destruct M as (n & ->). exists (S n). split; [reflexivity|right; split; [exact E|lia]]. }
  destruct NN as (n & -> & RN). assert (ES : w ++ a = opening n ++ concat re) by (rewrite <- (chars_all (w ++ a)), EC, concat_app, opening_concat; reflexivity).
  pose proof (utf8_app _ _ UW UA) as UWA. pose proof (utf8_app _ _ UW UB) as UWB. set (rest := concat re) in *. rewrite ES in T, UWA. rewrite (raw_string n rest UWA) in T.
  destruct (n <=? 30) eqn:LN; [|discriminate T]. destruct (find_sub (closing n) rest) as [i|] eqn:FS; [|discriminate T]. cbn [option_map] in T. assert (LM : length (opening n) + i + length (closing n) = m) by (injection T as T; exact T). clear T.
  apply find_sub_occurs in FS. destruct FS as ((x & y & ER & LX) & MIN). subst i. rewrite ER in ES.
  assert (EW : exists z, w = (opening n ++ x ++ closing n) ++ z).
  { assert (ES' : w ++ a = (opening n ++ x ++ closing n) ++ y) by (rewrite ES, <- !app_assoc; reflexivity).
    destruct (app_split w a _ y ES') as (z & -> & _); [rewrite !app_length; lia|]. eauto. }
  destruct EW as (z & EW). assert (EY : y = z ++ a).
  { rewrite EW in ES. rewrite <- !app_assoc in ES. repeat apply app_inv_head in ES. congruence. }
  assert (EB : w ++ b = opening n ++ (x ++ closing n) ++ z ++ b) by (rewrite EW, <- !app_assoc; reflexivity).
  rewrite EB in *. rewrite (raw_string n _ UWB), LN.
  assert (FB : find_sub (closing n) ((x ++ closing n) ++ z ++ b) = Some (length x)).
  { apply find_sub_occurs. split; [exists x, (z ++ b); rewrite <- app_assoc; auto|]. intros j LJ O. apply (MIN j LJ). rewrite ER, EY, app_assoc.
    apply (occurs_local _ _ _ (z ++ a)) in O; [exact O|]. rewrite app_length. lia. }
  rewrite FB. destruct (find U (r_re r) (opening n ++ (x ++ closing n) ++ z ++ b)) as [q'|] eqn:F'; [cbn [option_map]; rewrite <- LM; reflexivity|]. exfalso. exact (finds_raw U (r_re r) n _ RN UWB F').
Qed.

(** ** The lexer *)
Section Local.
  Variables (U : tables) (err : bytes -> nat) (rules : list lex_rule).
  Hypothesis TU : tables_ok U.
  Hypothesis FEW : few rules.
  Hypothesis KNOWN : forall r, In r rules -> r_f r = None \/ (r_f r = Some parse_raw_string /\ (r_re r = raw_re \/ r_re r = raw_plus_re)).
  Hypothesis LOCAL : local_rules rules = true.
  Let lx := regex_lexer U longest err rules.

  Lemma local_at : progressing lx -> forall w a b, utf8 w -> utf8 a -> utf8 b -> tk_ty (lx (w ++ a)) <> ERROR ->
    (forall r c rest, In r rules -> r_f r = Some parse_raw_string -> w ++ a = 114 :: c :: rest -> c = 35 \/ c = 34 -> try_rule U (w ++ a) r = Ok None -> False) ->
    tk_len (lx (w ++ a)) < length w -> lx (w ++ b) = lx (w ++ a).
  Proof.
    intros PG w a b UW UA UB NERR RAW LT.
    assert (NW : w <> []) by (intros ->; cbn in LT; lia).
    assert (NS : w ++ a <> []) by (destruct w; [congruence|discriminate]).
    pose proof (utf8_app _ _ UW UA) as UWA.
    unfold local_rules in LOCAL. apply andb_true_iff in LOCAL. destruct LOCAL as [LR ND]. rewrite forallb_forall in LR. apply nodupb_ok in ND.
    unfold lx, regex_lexer in NERR, LT |- *. destruct (next_token U longest err rules (w ++ a)) as [t| |] eqn:NT; [|destruct (NERR eq_refl)|destruct (NERR eq_refl)].
    destruct (C71_longest _ _ _ _ _ FEW NT) as [(before & r0 & after & ER & _ & T0 & MB & MA)|[-> _]]; [|destruct (NERR eq_refl)].
    assert (MAX : forall r m, In r rules -> try_rule U (w ++ a) r = Ok (Some m) -> m < length w).
    { intros r m I T. enough (m <= tk_len t) by lia. rewrite ER in I. apply in_app_or in I. destruct I as [I|[<-|I]]; [specialize (MB _ _ I T); lia|rewrite T0 in T; injection T as ->; lia|exact (MA _ _ I T)]. }
    assert (I0 : In r0 rules) by (rewrite ER; apply in_or_app; right; left; reflexivity).
    assert (TOK : forall r, In r rules -> exists o, try_rule U (w ++ a) r = Ok o).
    { intros r I. unfold next_token in NT. destruct (rule_kind rules r I) as (k & J). destruct (new_lexer rules) as [tys l]. cbn [snd] in J.
      apply bind_ok in NT. destruct NT as (kn & MN & _). unfold m_next in MN. apply bind_ok in MN. destruct MN as (c & C & _).
      destruct (candidates_all _ _ _ _ C _ _ J) as (o & O & _). eauto. }
    assert (SAME : forall r, In r rules -> try_rule U (w ++ b) r = try_rule U (w ++ a) r).
    { intros r I. destruct (KNOWN r I) as [RF|[RF RE]].
      - assert (FM : forall m, find U (r_re r) (w ++ a) = Some m -> m < length w).
        { intros m F. apply (MAX r m I). unfold try_rule. rewrite F, RF. reflexivity. }
        assert (SF : find U (r_re r) (w ++ b) = find U (r_re r) (w ++ a)).
        2:{ unfold try_rule. rewrite SF, RF. reflexivity. }
        pose proof (LR r I) as L. unfold local_rule in L. rewrite RF in L. apply andb_true_iff in L. destruct L as [NU L]. apply negb_true_iff in NU. rewrite !orb_true_iff in L.
        assert (STEADY : steady U (r_re r)).
        { destruct L as [[L|L]|L]; [exact (simple_steady U _ TU L)| |].
          - apply andb_true_iff in L. apply gr_steady; tauto.
          - unfold covered in L. apply andb_true_iff in L. apply free_steady, pf_ok; tauto. }
        destruct (find U (r_re r) (w ++ a)) as [m|] eqn:FA; [exact (find_steady U w a b UW UA UB _ m STEADY FA (FM m eq_refl))|].
        destruct L as [[L|L]|L].
        + exact (simple_none U _ w a b L UW UA UB NW FA).
        + apply andb_true_iff in L. destruct L as [_ L]. destruct (find U (r_re r) (w ++ b)) as [m|] eqn:FB; [|reflexivity]. exfalso.
          destruct (find_first U w UW (r_re r) b UB NU NW) as (c & W & EW & K); [congruence|].
          assert (F0 : find U (r_re r0) (w ++ a) <> None) by (intros Z; unfold try_rule in T0; rewrite Z in T0; discriminate T0).
          assert (D : exists c0 W0, chars w = c0 :: W0 /\ exists k, In k (firsts (r_re r0)) /\ in_set U k c0 = true).
          { apply (find_first U w UW (r_re r0) a UA); [|exact NW|exact F0]. pose proof (LR r0 I0) as L0. unfold local_rule in L0.
            destruct (KNOWN r0 I0) as [R0|[R0 [E0|E0]]]; rewrite R0 in L0; [apply andb_true_iff in L0; apply negb_true_iff; tauto|rewrite E0; reflexivity|rewrite E0; reflexivity]. }
          destruct D as (c0 & W0 & EW0 & K0). rewrite EW in EW0. injection EW0 as <- <-. unfold alone in L. rewrite forallb_forall in L. specialize (L r0 I0).
          apply orb_true_iff in L. destruct L as [L|L]; [|exact (disjoint_ok U _ _ c TU L K0 K)]. apply Nat.eqb_eq in L. pose proof (same_type rules r r0 ND I I0 L) as ->.
          congruence.
        + unfold covered in L. apply andb_true_iff in L. destruct L as [PF L]. apply existsb_exists in L. destruct L as (r1 & I1 & L).
          destruct (r_f r1) eqn:F1; [discriminate L|]. destruct (r_re r1) as [|?|[|[| |k]| | |] [| | | |[|[| |k']| | |]]| |] eqn:E1; try discriminate L.
          destruct k; try discriminate L. destruct k'; try discriminate L.
          destruct (find U (r_re r) (w ++ b)) as [m|] eqn:FB; [|reflexivity]. exfalso. destruct (find_some _ _ _ _ FB) as (cs & rest & EC & M & _).
          pose proof (within_ok U Word (r_re r) TU L cs M) as WC. rewrite (chars_app w b UW UB) in EC.
          destruct (le_lt_dec (length (chars w)) (length cs)) as [LE|LE].
          * (* all of [w] are word characters *)
            assert (EW : exists z, cs = chars w ++ z).
            { exists (skipn (length (chars w)) cs). rewrite <- (firstn_skipn (length (chars w)) cs) at 1. f_equal.
              pose proof (f_equal (firstn (length (chars w))) EC) as X. rewrite firstn_app, Nat.sub_diag, firstn_O, app_nil_r, firstn_all in X. rewrite firstn_app in X.
              replace (length (chars w) - length cs) with 0 in X by lia. rewrite firstn_O, app_nil_r in X. symmetry. exact X. }
            destruct EW as (z & ->). apply Forall_app in WC. destruct WC as [WC _].
            assert (DR : forall l x, Forall (fun c => U Word c = true) l -> dropw U (Cls Word) (l ++ x) = dropw U (Cls Word) x).
            { clear. induction l as [|c l IH]; intros x F; [reflexivity|]. inversion F as [|? ? UC F']; subst. cbn [app dropw in_set]. rewrite UC. exact (IH x F'). }
            assert (FE : first_end U (r_re r1) (chars w ++ chars a) = Some (dropw U (Cls Word) (chars a))).
            { rewrite E1. rewrite (seq_first U _ _ _ (pf_ok U TU (Chr (Cls Word)) eq_refl)). destruct (chars w) as [|c W] eqn:EW.
              - exfalso. apply NW. rewrite <- (chars_all w), EW. reflexivity.
              - pose proof (Forall_inv WC) as WC1. pose proof (Forall_inv_tail WC) as WC2. unfold first_end at 1. cbn [app ends in_set]. rewrite WC1. cbn [hd_error].
                rewrite star_first. f_equal. apply DR. exact WC2. }
            assert (T1 : exists m1, try_rule U (w ++ a) r1 = Ok (Some m1) /\ length w <= m1).
            { unfold try_rule, find. rewrite F1. fold (first_end U (r_re r1) (chars (w ++ a))). rewrite (chars_app w a UW UA), FE. cbn [option_map].
              eexists. split; [reflexivity|]. rewrite app_length.
              assert (LD : length (concat (dropw U (Cls Word) (chars a))) <= length a).
              { rewrite <- (chars_all a) at 2. generalize (chars a). clear. induction l as [|c l IH]; [cbn; lia|]. cbn [dropw]. destruct (in_set U (Cls Word) c); [|lia]. cbn [concat]. rewrite app_length. lia. }
              lia. }
            destruct T1 as (m1 & T1 & GE). pose proof (MAX r1 m1 I1 T1). lia.
          * assert (EW : exists v, chars w = cs ++ v).
            { exists (skipn (length cs) (chars w)). rewrite <- (firstn_skipn (length cs) (chars w)) at 1. f_equal.
              pose proof (f_equal (firstn (length cs)) EC) as X. rewrite firstn_app in X. replace (length cs - length (chars w)) with 0 in X by lia. rewrite firstn_O, app_nil_r in X.
              rewrite firstn_app, Nat.sub_diag, firstn_O, app_nil_r, firstn_all in X. exact X. }
            destruct EW as (v & EW). exact (find_inside U w UW (r_re r) cs v EW M a UA FA).
      - destruct (TOK r I) as ([m|] & T).
        + rewrite T. exact (raw_same U r w a b m RF RE UW UA UB T (MAX r m I T)).
        + rewrite T. unfold try_rule. destruct (find U (r_re r) (w ++ b)) as [m|] eqn:FB; [|reflexivity]. exfalso.
          destruct (found_raw U _ _ RE ltac:(rewrite FB; discriminate)) as (n & rest & EB).
          destruct w as [|x w']; [congruence|]. destruct w' as [|y w'].
          * (* a token shorter than one byte *)
            cbn in LT. destruct (PG _ NS) as [P1 _]. unfold lx, regex_lexer in P1. rewrite NT in P1. lia.
          * unfold opening in EB. cbn [app] in EB. injection EB as -> EB.
            apply (RAW r y (w' ++ a) I RF eq_refl); [|exact T]. destruct n as [|n]; cbn in EB; injection EB as -> _; auto. }
    assert (NB : next_token U longest err rules (w ++ b) = Ok t).
    { rewrite <- NT. unfold next_token. destruct (new_lexer_ok rules FEW) as [_ K]. destruct (rule_kind rules r0 I0) as (k0 & J0).
      destruct (new_lexer rules) as [tys l]. cbn [snd] in *. unfold m_next.
      assert (CE : candidates U (w ++ b) l = candidates U (w ++ a) l) by (apply candidates_same; intros k r J; apply SAME; exact (proj1 (K _ _ J))).
      rewrite CE. destruct (candidates U (w ++ a) l) as [[|x c]| |] eqn:C; try reflexivity.
      exfalso. destruct (candidates_all _ _ _ _ C _ _ J0) as (o & O & X). rewrite T0 in O. injection O as <-. destruct (X _ eq_refl). }
    rewrite NB. reflexivity.
  Qed.
  (** Where the rule for raw strings does not apply in a text of this kind, no hash or quote follows the letter. *)
  Variable fine : bytes -> Prop.
  Hypothesis RAW : forall r s c rest, In r rules -> r_f r = Some parse_raw_string -> utf8 s -> error_free lx s -> fine s ->
    s = 114 :: c :: rest -> c = 35 \/ c = 34 -> try_rule U s r = Ok None -> False.

  Lemma error_head : forall s, s <> [] -> progressing lx -> error_free lx s -> tk_ty (lx s) <> ERROR.
  Proof.
    intros s NE P EF. destruct (lex_ok lx s P) as (ts & L & T). specialize (EF _ L). inversion T; subst; [congruence|]. exact (Forall_inv EF).
  Qed.

  Lemma local_on_rules : progressing lx -> local_on lx fine.
  Proof.
    intros PG w a b UW UA UB EF FI LT.
    assert (NS : w ++ a <> []) by (destruct w; [cbn in LT; lia|discriminate]).
    apply (local_at PG w a b UW UA UB (error_head _ NS PG EF)); [|exact LT].
    intros r c rest I RF ES C T. exact (RAW r _ c rest I RF (utf8_app _ _ UW UA) EF FI ES C T).
  Qed.
End Local.
