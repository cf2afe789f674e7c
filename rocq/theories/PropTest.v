(** Proofs about the property test of fall and about which edits it tries. *)
From Coq Require Import List Arith NArith Bool Lia.
From Verif Require Import Base BaseFacts TextModel TextSpec TextProofs EditModel LexModel LexSpec LexProofs ScanSpec ScanProofs TreeModel GrammarModel GrammarData ParserModel ConvertModel
  RegexModel RegexSpec RegexProofs RegexLang RelexChars RelexLang LexData NameData DumpModel NameModel PropsDump PropsRegex PropsRelex ReparseModel ReparseSpec ReparseProofs ReparseTotal PropsReparse AlwaysProofs PropsComplete FallTokens PropsCached
  HarnessModel HarnessSpec HarnessProofs PropsHarness FallQuotes PropModel PropSpec PropProofs.
Import ListNotations.
Open Scope list_scope.

(** ** Quote-free texts *)

Section Fall.
  Variables (U : tables) (err : bytes -> nat) (binder : nat -> list (nat * bytes) -> bool -> nat).
  Hypothesis T : tables_ok U.
  Hypothesis E : err_ok err.
  Hypothesis BO : forall ty sp b, binder ty sp b <= length sp.
  Notation L := (fall_shipped U err binder).

  Lemma quoteless_fine : forall old ops new, quoteless old ops -> apply ops (as_text old) = Ok new -> utf8 old /\ utf8 new.
  Proof.
    intros old ops new Q AP. split; [exact (proj1 Q)|]. destruct (lex_ok (l_lexer L) old (fall_lexes U err binder E)) as (toks & LX & _).
    exact (proj1 (quoteless_relexes U err T E old toks ops new Q LX AP)).
  Qed.

  Lemma quoteless_relex : forall old toks ops new, quoteless old ops -> lex (l_lexer L) old = Ok toks -> apply ops (as_text old) = Ok new ->
    exists region ts, relex (l_lexer L) toks ops new = Ok (ts, region) /\ lex (l_lexer L) new = Ok ts.
  Proof. intros old toks ops new Q LX AP. exact (proj2 (proj2 (quoteless_relexes U err T E old toks ops new Q LX AP))). Qed.

  Lemma quoteless_total : forall fuel0 fuel old f inc ops new x, quoteless old ops -> ascending ops -> parse_file L fuel0 old = Ok (f, inc) ->
    apply ops (as_text old) = Ok new -> parse_file L fuel new = Ok x -> reparse_file L fuel f inc ops = Ok x.
  Proof.
    exact (reparse_total L (fall_lexes U err binder E) utf8 quoteless quoteless_fine quoteless_relex fall_quiet (fun _ => true) fall_late 9
      (fall_means U err binder T E) fall_is_quiet (fall_punctual U err binder) eq_refl (fall_cached U err binder T E)).
  Qed.

  Lemma quoteless_safe : forall history old, utf8 old -> no_quote old -> Forall inserts_utf8 history -> Forall inserts_no_quote history -> all_safe quoteless old history.
  Proof.
    induction history as [|ops rest IH]; intros old UO NQ IU IN; [exact I|]. assert (Q : quoteless old ops) by (split; [exact UO|]; split; [exact (Forall_inv IU)|]; split; [exact NQ|exact (Forall_inv IN)]).
    cbn [all_safe]. split; [exact Q|]. intros new AP. apply IH; [exact (proj2 (quoteless_fine _ _ _ Q AP))| |exact (Forall_inv_tail IU)|exact (Forall_inv_tail IN)].
    destruct (apply_result _ _ _ AP) as [_ ->]. apply result_no_quote; [exact NQ|exact (Forall_inv IN)].
  Qed.

  Lemma quoteless_edits : forall history old new, utf8 old -> no_quote old -> Forall inserts_utf8 history -> Forall inserts_no_quote history -> Forall ascending history -> apply_all history old = Ok new ->
    exists start x fuel, forall more, parse_file L (fuel + more) old = Ok start /\ edit_all L (fuel + more) start history = Ok x /\ parse_file L (fuel + more) new = Ok x.
  Proof.
    intros history old new UO NQ IU IN AS AP. destruct (fall_parses U err binder T E BO old UO) as ([f inc] & fuel1 & PO). exists (f, inc).
    destruct (edits_total L (fall_lexes U err binder E) utf8 quoteless quoteless_fine quoteless_relex fall_quiet (fun _ => true) fall_late 9
      (fall_means U err binder T E) fall_is_quiet (fall_punctual U err binder) eq_refl (fall_cached U err binder T E) (fall_parses U err binder T E BO)
      history (fuel1 + 0) old f inc new (quoteless_safe history old UO NQ IU IN) AS (PO 0) AP) as (x & fuel2 & EX).
    exists x, (fuel1 + fuel2). intros more. split; [rewrite <- Nat.add_assoc; apply PO|]. replace (fuel1 + fuel2 + more) with (fuel2 + (fuel1 + more)) by lia. apply EX.
  Qed.

  (** ** The test *)

  Variable space : bytes -> bool.
  Hypothesis SP : space_ok space.
  Hypothesis CR : space [13] = true.
  Notation info := (info_of fall_names).

  Lemma speaks_shipped : speaks fall_grammar fall_ws fall_names L /\ forall txt, utf8 txt -> whole_characters L txt.
  Proof. exact (C71_named fall_grammar fall_ws fall_names fall_rules U longest err binder nm_fall lx_fall T longest_picks E BO). Qed.

  Lemma shuffle_quoteless : forall txt es, ascii txt -> no_quote txt -> shuffles txt 0 es ->
    quoteless txt es /\ ascending es /\ apply es (as_text txt) = Ok (result_of txt es) /\ ascii (result_of txt es) /\ no_quote (result_of txt es).
  Proof.
    intros txt es A NQ S. destruct (shuffle_incl _ _ _ S) as [I1 I2]. assert (AR : ascii (result_of txt es)) by exact (incl_ascii _ _ I1 A).
    split; [|split; [exact (ltr_ascending _ 0 (shuffle_ltr _ _ _ S))|split; [exact (apply_shuffle txt es [] 0 A S)|split; [exact AR|intros J; exact (NQ (I1 _ J))]]]].
    split; [exact (ascii_utf8 _ A)|]. rewrite Forall_forall in I2. split; [|split; [exact NQ|]]; apply Forall_forall; intros [r|b] J; try exact I; specialize (I2 _ J); cbn in I2.
    - apply ascii_utf8. exact (incl_ascii _ _ I2 A).
    - intros K. exact (NQ (I2 _ K)).
  Qed.

  Lemma check_passes : forall edits fuel0 txt f inc, Forall (well_drawn 0) edits -> ascii txt -> no_quote txt -> parse_file L fuel0 txt = Ok (f, inc) ->
    exists fuel, forall more, check_edits space info quoted L (fuel + more) txt (f, inc) edits = Ok tt.
  Proof.
    induction edits as [|e rest IH]; intros fuel0 txt f inc W A NQ P; [exists 0; reflexivity|]. destruct (edit_ok txt e 0 A (Forall_inv W)) as (es & EE & S). change (at_len (length txt) 0) with 0 in S.
    destruct (shuffle_quoteless txt es A NQ S) as (Q & AS & AP & AN & NN). set (new := result_of txt es) in *.
    destruct (fall_parses U err binder T E BO new (ascii_utf8 _ AN)) as ([f1 inc1] & fuel1 & PN). destruct (IH (fuel1 + 0) new f1 inc1 (Forall_inv_tail W) AN NN (PN 0)) as (fuel2 & H).
    exists (fuel1 + fuel2). intros more. cbn [check_edits fst snd]. rewrite EE. cbn [bind]. rewrite AP. cbn [bind].
    assert (PF : parse_file L (fuel1 + fuel2 + more) new = Ok (f1, inc1)) by (rewrite <- Nat.add_assoc; apply PN).
    rewrite (quoteless_total fuel0 (fuel1 + fuel2 + more) txt f inc es new (f1, inc1) Q AS P AP PF). cbn [bind]. rewrite PF. cbn [bind fst].
    destruct speaks_shipped as [SK WC]. assert (AF : a_file fall_names f1) by exact (parsed_file _ _ _ _ _ _ _ _ SK (WC _ (ascii_utf8 _ AN)) PF).
    rewrite (proj2 (proj1 (C77_equal_files space fall_grammar fall_ws fall_names f1 f1 SP nm_fall AF AF)) eq_refl). cbn [bind].
    replace (fuel1 + fuel2 + more) with (fuel2 + (fuel1 + more)) by lia. apply H.
  Qed.

  Lemma test_passes : forall txt edits, ascii txt -> no_quote txt -> Forall (well_drawn 0) edits ->
    exists fuel, forall more, property_test space info quoted L (fuel + more) txt edits = Ok tt.
  Proof.
    intros txt edits A NQ W. destruct (normalize_ok space (proj1 SP) CR txt A) as (n & N & AN & IN).
    assert (NN : no_quote n) by (intros J; destruct (IN _ J) as [J'|J']; [discriminate J'|exact (NQ J')]).
    destruct (fall_parses U err binder T E BO n (ascii_utf8 _ AN)) as ([f inc] & fuel1 & PN). destruct (check_passes edits (fuel1 + 0) n f inc W AN NN (PN 0)) as (fuel2 & H).
    exists (fuel1 + fuel2). intros more. unfold property_test. rewrite N. cbn [bind]. rewrite <- Nat.add_assoc, PN. cbn [bind]. replace (fuel1 + (fuel2 + more)) with (fuel2 + (fuel1 + more)) by lia. apply H.
  Qed.
End Fall.

(** ** What a success means *)

Lemma check_detects : forall space info debug L fuel edits txt x, check_edits space info debug L fuel txt x edits = Ok tt -> forall k, 1 <= k <= length edits ->
  exists history new y z d d', becomes txt (firstn k edits) history new /\ edit_all L fuel x history = Ok y /\ parse_file L fuel new = Ok z /\
    dump_file_ws info debug (fst z) = Ok d /\ dump_file_ws info debug (fst y) = Ok d' /\ trim_str space d = trim_str space d'.
Proof.
  intros space info debug L fuel. induction edits as [|e edits IH]; intros txt x H k K; [cbn in K; lia|]. cbn [check_edits] in H.
  apply bind_ok in H. destruct H as (ops & H1 & H). apply bind_ok in H. destruct H as (new & H2 & H). apply bind_ok in H. destruct H as (y & H3 & H). apply bind_ok in H. destruct H as (z & H4 & H).
  apply bind_ok in H. destruct H as ([] & H5 & H). destruct k as [|[|k]]; [lia| |].
  - unfold check_equal_files in H5. apply bind_ok in H5. destruct H5 as (d & D & H5). apply bind_ok in H5. destruct H5 as (d' & D' & H5). apply report_iff in H5.
    exists [ops], new, y, z, d, d'. cbn [firstn]. split; [econstructor; [exact H1|exact H2|constructor]|]. split; [cbn [edit_all]; rewrite H3; reflexivity|]. auto.
  - destruct (IH new y H (S k) ltac:(cbn in K; lia)) as (history & new' & y' & z' & d & d' & B & E & R). exists (ops :: history), new', y', z', d, d'.
    split; [change (firstn (S (S k)) (e :: edits)) with (e :: firstn (S k) edits); econstructor; eassumption|]. split; [cbn [edit_all]; rewrite H3; exact E|exact R].
Qed.

(** ** Which edits can be drawn *)

Lemma fraction_any : forall len o, o <= len -> (N.of_nat len <= u32_max)%N -> unit_ok (fraction len o) /\ at_len len (fraction len o) = o.
Proof.
  intros len o L B. destruct len as [|len]; [|apply fraction_ok; lia]. assert (o = 0) by lia. subst. split; [vm_compute; discriminate|]. unfold at_len, scale. rewrite N.mul_0_r. reflexivity.
Qed.

Lemma fraction_any_mono : forall len o o', o <= o' -> (fraction len o <= fraction len o')%N.
Proof. intros len o o' L. destruct len as [|len]; [unfold fraction; destruct (_ + _ - _)%N, (_ + _ - _)%N; vm_compute; discriminate|]. apply fraction_mono; lia. Qed.

Lemma as_text_edit_app : forall t a b x y, as_text_edit a t = Ok x -> as_text_edit b t = Ok y -> as_text_edit (a ++ b) t = Ok (x ++ y).
Proof.
  intros t a. induction a as [|op a IH]; intros b x y X Y; cbn [as_text_edit app] in *; [injection X as <-; exact Y|].
  apply bind_ok in X. destruct X as (o & O & X). apply bind_ok in X. destruct X as (os & OS & X). injection X as <-. rewrite O. cbn [bind]. rewrite (IH b os y OS Y). reflexivity.
Qed.

Section Covers.
  Variable txt : bytes.
  Hypothesis A : ascii txt.
  Hypothesis SHORT : (N.of_nat (length txt) <= u32_max)%N.
  Notation fr := (fraction (length txt)).

  Definition cuts_of (rs : list range) : list N := flat_map (fun r => [fr (rstart r); fr (rend r)]) rs.
  Definition draw_of (o : option range) : option (N * N) := option_map (fun r => (fr (rstart r), fr (rend r))) o.

  Lemma cuts_ascend : forall rs lo, left_to_right lo (map Copy rs) -> ascends (fr lo) (cuts_of rs).
  Proof.
    induction rs as [|r rs IH]; intros lo H; [exact I|]. cbn [map left_to_right] in H. destruct H as [H1 H2]. cbn [cuts_of flat_map app ascends].
    split; [apply fraction_any_mono; lia|]. split; [apply fraction_any_mono; lia|]. exact (IH _ H2).
  Qed.

  Lemma cuts_tuples : forall rs, tuples (cuts_of rs) = map (fun r => (fr (rstart r), fr (rend r))) rs.
  Proof. induction rs as [|r rs IH]; [reflexivity|]. cbn [cuts_of flat_map app tuples map]. f_equal. exact IH. Qed.

  Lemma one_op : forall c r, rstart r <= rend r -> rend r <= length txt ->
    as_edit_op (as_text txt) (c, (fr (rstart r), fr (rend r))) = Ok (if c then Copy r else Insert (sub (rstart r) (rend r) txt)).
  Proof.
    intros c r L B. destruct (fraction_any (length txt) (rstart r) ltac:(lia) SHORT) as [_ E1]. destruct (fraction_any (length txt) (rend r) B SHORT) as [U2 E2].
    rewrite (op_ok txt _ _ c A (fraction_any_mono _ _ _ L) U2), E1, E2. destruct r. reflexivity.
  Qed.

  Lemma copies_edit : forall rs, Forall (fun r => rstart r <= rend r <= length txt) rs ->
    as_text_edit (map (fun r => (true, (fr (rstart r), fr (rend r)))) rs) (as_text txt) = Ok (map Copy rs).
  Proof. induction rs as [|r rs IH]; intros F; [reflexivity|]. cbn [map as_text_edit]. rewrite one_op by (pose proof (Forall_inv F) as FQ; cbv beta in FQ; lia). cbn [bind]. rewrite (IH (Forall_inv_tail F)). reflexivity. Qed.

  Lemma insert_edit : forall o, in_text txt o -> as_text_edit (somes [option_map (fun p => (false, arb_range p)) (draw_of o)]) (as_text txt) = Ok (some_insert txt o).
  Proof.
    intros [r|] H; [|reflexivity]. specialize (H r eq_refl). cbn [draw_of option_map somes as_text_edit]. unfold arb_range. cbn [fst snd]. rewrite prop_range_le by (apply fraction_any_mono; lia).
    rewrite one_op by lia. reflexivity.
  Qed.

  Lemma somes_app : forall (X : Type) (a b : list (option X)), somes (a ++ b) = somes a ++ somes b.
  Proof. intros X a b. induction a as [|[x|] a IH]; cbn [somes app]; [reflexivity|f_equal; exact IH|exact IH]. Qed.

  Lemma interleave_two : forall (X : Type) (a b c : X) l, interleave [a; b] (c :: l) = [a] ++ [c] ++ [b] ++ l.
  Proof. intros X a b c [|d l]; reflexivity. Qed.

  Lemma covers : forall first second rs, in_text txt first -> in_text txt second -> left_to_right 0 (map Copy rs) -> Forall (fun r => rend r <= length txt) rs ->
    drawn (cuts_of rs) [draw_of first; draw_of second] /\ as_text_edit (arb_text_edit (cuts_of rs) [draw_of first; draw_of second]) (as_text txt) = Ok (two_inserts txt first second rs).
  Proof.
    intros first second rs I1 I2 LR B.
    assert (LE : Forall (fun r => rstart r <= rend r <= length txt) rs).
    { clear - LR B. revert LR B. generalize 0. induction rs as [|r rs IH]; intros lo LR B; constructor; cbn [map left_to_right] in LR; [pose proof (Forall_inv B) as FQ; cbv beta in FQ; lia|]. exact (IH _ (proj2 LR) (Forall_inv_tail B)). }
    split.
    - split.
      + apply Forall_forall. intros x J. apply in_flat_map in J. destruct J as (r & J & K). rewrite Forall_forall in LE. specialize (LE r J).
        destruct K as [<-|[<-|[]]]; apply fraction_any; try exact SHORT; lia.
      + assert (D : forall o, in_text txt o -> forall p, draw_of o = Some p -> pair_ok p).
        { intros [r|] H p Q; [|discriminate Q]. specialize (H r eq_refl). cbn in Q. injection Q as <-. split; cbn [fst snd]; apply fraction_any; try exact SHORT; lia. }
        constructor; [exact (D first I1)|]. constructor; [exact (D second I2)|constructor].
    - unfold arb_text_edit. rewrite (sort_sorted _ _ (cuts_ascend rs 0 LR)), cuts_tuples, map_map. cbv zeta. cbn [map].
      assert (C : forall rs, Forall (fun r => rstart r <= rend r <= length txt) rs ->
        somes (map (fun x : range => Some (true, prop_range (fst (fr (rstart x), fr (rend x))) (snd (fr (rstart x), fr (rend x))))) rs) = map (fun r => (true, (fr (rstart r), fr (rend r)))) rs).
      { clear. induction rs as [|r rs IH]; intros F; [reflexivity|]. cbn [map somes fst snd]. rewrite prop_range_le by (apply fraction_any_mono; pose proof (Forall_inv F) as FQ; cbv beta in FQ; lia). f_equal. exact (IH (Forall_inv_tail F)). }
      unfold two_inserts. destruct rs as [|r rs].
      + cbn [map interleave firstn skipn app]. rewrite List.app_nil_r. change (?a :: ?b :: []) with ([a] ++ [b]). rewrite somes_app. apply as_text_edit_app; apply insert_edit; assumption.
      + cbn [map firstn skipn]. rewrite interleave_two. set (X := map _ rs).
        rewrite !somes_app.
        apply as_text_edit_app; [apply insert_edit; exact I1|]. apply (as_text_edit_app _ _ _ [Copy r]).
        * pose proof (C [r] (Forall_cons _ (Forall_inv LE) (Forall_nil _))) as CR. cbn [map] in CR. rewrite CR. exact (copies_edit [r] (Forall_cons _ (Forall_inv LE) (Forall_nil _))).
        * apply as_text_edit_app; [apply insert_edit; exact I2|]. unfold X. rewrite (C rs (Forall_inv_tail LE)). exact (copies_edit rs (Forall_inv_tail LE)).
  Qed.
End Covers.

Lemma kinds_kept : forall t ops es, as_text_edit ops t = Ok es -> map (fun e => match e with Copy _ => true | Insert _ => false end) es = map fst ops.
Proof.
  intros t ops. induction ops as [|[c r] ops IH]; intros es H; cbn [as_text_edit] in H; [injection H as <-; reflexivity|].
  apply bind_ok in H. destruct H as (o & O & H). apply bind_ok in H. destruct H as (os & OS & H). injection H as <-. cbn [map fst]. f_equal; [|exact (IH os OS)].
  unfold as_edit_op in O. apply bind_ok in O. destruct O as (len & _ & O). apply bind_ok in O. destruct O as (rr & _ & O). cbn [fst] in O. destruct c; [injection O as <-; reflexivity|].
  apply bind_ok in O. destruct O as (s & _ & O). apply bind_ok in O. destruct O as (b & _ & O). injection O as <-. reflexivity.
Qed.

(** At most one copy comes before an insertion. *)
Lemma drawn_kinds : forall cuts inserts, length inserts <= 2 -> exists n i j k, map fst (arb_text_edit cuts inserts) = repeat false i ++ repeat true n ++ repeat false j ++ repeat true k /\ n <= 1 /\ i + j <= 2.
Proof.
  intros cuts inserts LE. unfold arb_text_edit. generalize (sort_units cuts). clear cuts. intros l.
  assert (C : forall t : list (N * N), exists k, map fst (somes (map (fun se => Some (true, prop_range (fst se) (snd se))) t)) = repeat true k).
  { induction t as [|p t (k & IH)]; [exists 0; reflexivity|exists (S k)]. cbn [map somes fst repeat]. f_equal. exact IH. }
  destruct inserts as [|o1 [|o2 [|o3 ins]]]; [| | |cbn in LE; lia]; cbn [map].
  - destruct (C (tuples l)) as (k & E). exists 0, 0, 0, k. cbn [interleave repeat app]. split; [exact E|lia].
  - destruct l as [|a [|b l]]; cbn [tuples map interleave]; try (destruct o1; [exists 0, 1, 0, 0|exists 0, 0, 0, 0]; split; try reflexivity; lia).
    destruct (C (tuples l)) as (k & E). destruct o1; cbn [option_map somes map fst]; [exists 1, 1, 0, k|exists 1, 0, 0, k]; cbn [repeat app]; rewrite E; split; try reflexivity; lia.
  - destruct l as [|a [|b l]]; cbn [tuples map interleave]; try (destruct o1, o2; [exists 0, 2, 0, 0|exists 0, 1, 0, 0|exists 0, 1, 0, 0|exists 0, 0, 0, 0]; split; try reflexivity; lia).
    destruct (C (tuples l)) as (k & E). revert E. set (X := map _ (tuples l)). intros E.
    assert (EQ : forall x : option arb_op, match X with [] => [x] | y :: b' => x :: y :: b' end = x :: X) by (intros x; destruct X; reflexivity). rewrite EQ.
    destruct o1, o2; cbn [option_map somes map fst]; [exists 1, 1, 1, k|exists 1, 1, 0, k|exists 1, 0, 1, k|exists 1, 0, 0, k]; cbn [repeat app]; rewrite E; split; try reflexivity; lia.
Qed.
