(** Proofs about the line index, the automaton, the symbol index and the file index. *)
From Coq Require Import List Arith Bool Lia Sorted.
From Verif Require Import Base BaseFacts TextModel TextSpec TextProofs TreeModel TreeSpec TreeProofs SearchModel
  SearchSpec SearchProofs TraversalProofs FileEditSpec FileEditProofs EditorSpec EditorProofs IndexModel IndexSpec.
Import ListNotations.

(** ** Lines *)

(** Offsets after the newline bytes of [s], which starts at offset [k]. *)
Fixpoint nls (s : bytes) (k : nat) : list nat :=
  match s with [] => [] | b :: r => if b =? 10 then S k :: nls r (S k) else nls r (S k) end.

Lemma nls_skip : forall c s k, ~ In 10 c -> nls (c ++ s) k = nls s (k + length c).
Proof.
  induction c as [|b c IH]; intros s k N; cbn [app nls length].
  - now rewrite Nat.add_0_r.
  - destruct (b =? 10) eqn:E; [apply Nat.eqb_eq in E; subst; exfalso; apply N; left; reflexivity|].
    rewrite IH; [f_equal; lia|]. intros I. apply N. right. exact I.
Qed.

Lemma utf8_newline : forall c, utf8_char c -> c = [10] \/ ~ In 10 c.
Proof.
  intros [|b [|b2 r]] [V U]; [destruct V| |].
  - destruct (Nat.eq_dec b 10) as [->|N]; [left; reflexivity|right]. intros [E|[]]. congruence.
  - right. destruct V as [_ F]. intros [E|I]; [lia|]. rewrite Forall_forall in F. apply F in I. discriminate.
Qed.

Lemma newline_offsets_nls : forall cs k, Forall utf8_char cs -> newline_offsets cs k = nls (concat cs) k.
Proof.
  induction cs as [|c cs IH]; intros k F; [reflexivity|]. inversion F as [|? ? U F']; subst.
  cbn [newline_offsets concat]. destruct (utf8_newline c U) as [->|N].
  - cbn [bytes_eqb list_eqb Nat.eqb andb app nls length]. rewrite IH by exact F'. replace (k + 1) with (S k) by lia. reflexivity.
  - rewrite nls_skip by exact N. destruct (bytes_eqb c [10]) eqn:E.
    + apply bytes_eqb_spec in E. subst c. exfalso. apply N. left. reflexivity.
    + apply IH. exact F'.
Qed.

Lemma utf8_valid : forall cs, Forall utf8_char cs -> Forall valid_char cs.
Proof. intros cs F. induction F as [|c cs [V _] F IH]; constructor; auto. Qed.

Lemma line_index_nls : forall cs, Forall utf8_char cs -> line_index_new (concat cs) = 0 :: nls (concat cs) 0.
Proof.
  intros cs F. unfold line_index_new. rewrite (chars_concat cs (utf8_valid cs F)). now rewrite newline_offsets_nls.
Qed.

Lemma nls_above : forall s k x, In x (nls s k) -> k < x.
Proof.
  induction s as [|b s IH]; intros k x I; [easy|]. cbn [nls] in I. destruct (b =? 10).
  - destruct I as [<-|I]; [lia|]. apply IH in I. lia.
  - apply IH in I. lia.
Qed.

Lemma translate_nls : forall s k off x0, x0 <= k -> k <= off ->
  exists pre last, firstn (off - k) s = pre ++ last /\ (pre = [] \/ exists x, pre = x ++ [10]) /\ ~ In 10 last
    /\ upper_bound (nls s k) off = count_occ Nat.eq_dec pre 10
    /\ nth_error (x0 :: nls s k) (count_occ Nat.eq_dec pre 10) = Some (if count_occ Nat.eq_dec pre 10 =? 0 then x0 else k + length pre)
    /\ (pre <> [] -> count_occ Nat.eq_dec pre 10 <> 0).
Proof.
  induction s as [|b s IH]; intros k off x0 L1 L2.
  - exists [], []. rewrite firstn_nil. cbn. repeat split; auto.
  - destruct (Nat.eq_dec off k) as [->|NE].
    + exists [], []. rewrite Nat.sub_diag. cbn [firstn app].
      assert (U : upper_bound (nls (b :: s) k) k = 0).
      { pose proof (nls_above (b :: s) k) as A. destruct (nls (b :: s) k) as [|x r] eqn:E; [reflexivity|]. cbn [upper_bound].
        specialize (A x (or_introl eq_refl)). destruct (x <=? k) eqn:Q; [apply Nat.leb_le in Q; lia|reflexivity]. }
      rewrite U. cbn. repeat split; auto.
    + destruct (off - k) as [|d] eqn:D; [lia|]. cbn [firstn nls].
      assert (D' : off - S k = d) by lia. destruct (b =? 10) eqn:B.
      * apply Nat.eqb_eq in B. subst b.
        destruct (IH (S k) off (S k) ltac:(lia) ltac:(lia)) as (pre & last & E & P & N & U & X & Z). rewrite D' in E.
        exists (10 :: pre), last. rewrite E. split; [reflexivity|]. split.
        { right. destruct P as [->|(x & ->)]; [exists []; reflexivity|exists (10 :: x); reflexivity]. }
        split; [exact N|]. rewrite (count_occ_cons_eq Nat.eq_dec pre (eq_refl 10)).
        split. { cbn [upper_bound]. destruct (S k <=? off) eqn:Q; [now rewrite U|apply Nat.leb_gt in Q; lia]. }
        split; [|intros _; lia]. cbn [Nat.eqb]. change (nth_error (S k :: nls s (S k)) (count_occ Nat.eq_dec pre 10) = Some (k + length (10 :: pre))).
        rewrite X. f_equal. cbn [length]. destruct pre as [|y pre]; [cbn; lia|].
        destruct (count_occ Nat.eq_dec (y :: pre) 10 =? 0) eqn:Q; [apply Nat.eqb_eq in Q; exfalso; apply Z; [discriminate|exact Q]|lia].
      * destruct (IH (S k) off x0 ltac:(lia) ltac:(lia)) as (pre & last & E & P & N & U & X & Z). rewrite D' in E.
        apply Nat.eqb_neq in B. destruct pre as [|y pre].
        -- exists [], (b :: last). cbn [app] in *. rewrite E. split; [reflexivity|]. split; [left; reflexivity|].
           split; [intros [Q|Q]; [congruence|contradiction]|]. cbn [count_occ Nat.eqb nth_error] in *. split; [exact U|]. split; [reflexivity|]. intros Q. contradiction.
        -- exists (b :: y :: pre), last. rewrite E. split; [reflexivity|]. split.
           { right. destruct P as [P|(x & P)]; [discriminate|]. exists (b :: x). now rewrite P. }
           split; [exact N|]. rewrite (count_occ_cons_neq Nat.eq_dec (y :: pre) B). split; [exact U|].
           split; [|intros _; apply Z; discriminate]. rewrite X. f_equal.
           destruct (count_occ Nat.eq_dec (y :: pre) 10 =? 0); [reflexivity|cbn [length]; lia].
Qed.

Lemma translate_ok : forall cs off, Forall utf8_char cs ->
  exists line col, translate (line_index_new (concat cs)) off = Ok (line, col) /\ line_col (concat cs) off line col.
Proof.
  intros cs off F. rewrite (line_index_nls cs F).
  destruct (translate_nls (concat cs) 0 off 0 ltac:(lia) ltac:(lia)) as (pre & last & E & P & N & U & X & Z).
  rewrite Nat.sub_0_r in E.
  exists (count_occ Nat.eq_dec pre 10), (off - length pre). split; [|exists pre, last; auto 6].
  unfold translate. cbn [upper_bound Nat.leb]. rewrite U. rewrite usub_le by lia. cbn [bind].
  replace (S (count_occ Nat.eq_dec pre 10) - 1) with (count_occ Nat.eq_dec pre 10) by lia.
  unfold index. rewrite X. cbn [unwrap bind plus].
  assert (LE : length pre <= off).
  { pose proof (f_equal (@length nat) E) as Q. rewrite firstn_length, app_length in Q. lia. }
  destruct pre as [|y pre].
  - cbn [count_occ Nat.eqb length]. rewrite usub_le by lia. reflexivity.
  - destruct (count_occ Nat.eq_dec (y :: pre) 10 =? 0) eqn:Q; [apply Nat.eqb_eq in Q; exfalso; apply Z; [discriminate|exact Q]|].
    rewrite usub_le by exact LE. reflexivity.
Qed.

(** The decomposition is unique. *)
Lemma split_unique : forall (a b c d : bytes), a ++ b = c ++ d ->
  (a = [] \/ exists x, a = x ++ [10]) -> (c = [] \/ exists x, c = x ++ [10]) -> ~ In 10 b -> ~ In 10 d -> a = c /\ b = d.
Proof.
  assert (G : forall (a b c d : bytes), a ++ b = c ++ d -> (c = [] \/ exists x, c = x ++ [10]) -> ~ In 10 b -> length a < length c -> False).
  { intros a b c d E C B L. destruct C as [->|(x & ->)]; [cbn in L; lia|]. rewrite app_length in L. cbn in L.
    assert (I : nth_error (a ++ b) (length x) = Some 10).
    { rewrite E. rewrite <- app_assoc. rewrite nth_error_app2 by lia. now rewrite Nat.sub_diag. }
    rewrite nth_error_app2 in I by lia. apply nth_error_In in I. contradiction. }
  intros a b c d E A C B D. destruct (lt_eq_lt_dec (length a) (length c)) as [[L|L]|L].
  - destruct (G a b c d E C B L).
  - clear - L E. revert c L E. induction a as [|x a IH]; intros [|y c] L E; cbn in *; try lia; [auto|].
    injection E as -> E. destruct (IH c ltac:(lia) E) as [-> ->]. auto.
  - destruct (G c d a b (eq_sym E) A D L).
Qed.

Lemma line_col_unique : forall s off l c l' c', line_col s off l c -> line_col s off l' c' -> l = l' /\ c = c'.
Proof.
  intros s off l c l' c' (a & b & E & A & B & -> & ->) (a' & b' & E' & A' & B' & -> & ->).
  rewrite E in E'. destruct (split_unique _ _ _ _ E' A A' B B') as [-> _]. auto.
Qed.

(** Later offsets have later positions. *)
Lemma line_col_mono : forall s o1 o2 l1 c1 l2 c2, o1 < o2 -> line_col s o1 l1 c1 -> line_col s o2 l2 c2 ->
  l1 < l2 \/ (l1 = l2 /\ c1 < c2).
Proof.
  intros s o1 o2 l1 c1 l2 c2 L (a & b & E & A & B & -> & ->) (a' & b' & E' & A' & B' & -> & ->).
  assert (X : exists m, firstn o2 s = firstn o1 s ++ m).
  { exists (skipn o1 (firstn o2 s)). rewrite <- (firstn_skipn o1 (firstn o2 s)) at 1. f_equal. rewrite firstn_firstn. f_equal. lia. }
  destruct X as [m X]. rewrite E, E' in X. rewrite <- app_assoc in X.
  assert (LA : length a <= o1). { pose proof (f_equal (@length nat) E) as Q. rewrite firstn_length, app_length in Q. lia. }
  destruct (le_lt_dec (length a') (length a)) as [Q|Q].
  - (* the later cut cannot lie before the earlier one *)
    assert (a = a').
    { destruct (Nat.eq_dec (length a') (length a)) as [Q'|Q'].
      - clear - X Q'. revert a' Q' X. induction a as [|x a IH]; intros [|y a'] Q X; cbn in *; try lia; [auto|]. injection X as -> X. f_equal. apply IH; [lia|exact X].
      - exfalso. destruct A as [->|(x & ->)]; [cbn in *; lia|]. rewrite app_length in Q, Q'. cbn in Q, Q'.
        assert (I : nth_error (a' ++ b') (length x) = Some 10).
        { rewrite X. rewrite <- app_assoc. rewrite nth_error_app2 by lia. now rewrite Nat.sub_diag. }
        rewrite nth_error_app2 in I by lia. apply nth_error_In in I. contradiction. }
    subst a'. right. split; [reflexivity|lia].
  - left.
    assert (a' = a ++ skipn (length a) a').
    { rewrite <- (firstn_skipn (length a) a') at 1. f_equal.
      pose proof (f_equal (firstn (length a)) X) as Y. rewrite !firstn_app in Y.
      rewrite Nat.sub_diag in Y. replace (length a - length a') with 0 in Y by lia. cbn [firstn] in Y. rewrite !app_nil_r in Y.
      rewrite Y. apply firstn_all. }
    rewrite H. rewrite count_occ_app.
    assert (In 10 (skipn (length a) a')).
    { destruct A' as [->|(x & E1)]; [cbn in Q; lia|].
      assert (I : nth_error a' (length x) = Some 10) by (rewrite E1, nth_error_app2, Nat.sub_diag by lia; reflexivity).
      assert (length a <= length x) by (rewrite E1, app_length in Q; cbn in Q; lia).
      replace (length x) with (length a + (length x - length a)) in I by lia. rewrite <- nth_error_skipn in I. eapply nth_error_In; eauto. }
    apply (count_occ_In Nat.eq_dec) in H0. lia.
Qed.

(** ** The automaton *)

Lemma subseq_app : forall A (a : list A) q l, subseq q l -> subseq q (a ++ l).
Proof. induction a; intros; cbn [app]; [auto|constructor; auto]. Qed.

Lemma subseq_cons : forall A (a : A) q l, subseq (a :: q) l -> subseq q l.
Proof.
  intros A a q l H. remember (a :: q) as x eqn:E. revert a q E. induction H; intros a' q' E; try discriminate.
  - injection E as -> ->. now constructor.
  - constructor. eapply IHsubseq; eauto.
Qed.

Lemma a_accept_ok : forall q st b, exists st', a_accept q st b = Ok st' /\ st <= st' /\ (st <= length q -> st' <= length q).
Proof.
  intros q st b. unfold a_accept. destruct (length q <=? st) eqn:E; [exists st; split; [reflexivity|lia]|].
  apply Nat.leb_gt in E. destruct (nth_error q st) as [c|] eqn:N; [|apply nth_error_None in N; lia].
  unfold index. rewrite N. cbn [unwrap bind]. destruct (b =? c); eexists; (split; [reflexivity|lia]).
Qed.

Lemma a_run_ok : forall q k st, st <= length q ->
  exists st', a_run q st k = Ok st' /\ st <= st' <= length q /\ (st' = length q <-> subseq (skipn st q) k).
Proof.
  intros q. induction k as [|b k IH]; intros st L; unfold a_run; cbn [fold_res].
  - exists st. split; [reflexivity|]. split; [lia|]. split; intros H.
    + subst st. rewrite skipn_all. constructor.
    + inversion H as [l E|a q' l H' E|a q' l H' E]. symmetry in E. pose proof (f_equal (@length nat) E) as Q. rewrite skipn_length in Q. cbn in Q. lia.
  - unfold a_accept at 1. destruct (length q <=? st) eqn:E.
    + apply Nat.leb_le in E. assert (st = length q) by lia. subst st. cbn [bind].
      destruct (IH (length q) (le_n _)) as (st' & R & B & _). fold (a_run q (length q) k). rewrite R. exists st'. split; [reflexivity|]. split; [exact B|].
      split; intros _; [rewrite skipn_all; constructor|lia].
    + apply Nat.leb_gt in E. destruct (nth_error q st) as [c|] eqn:N; [|apply nth_error_None in N; lia].
      unfold index. rewrite N. cbn [unwrap bind].
      assert (SK : skipn st q = c :: skipn (S st) q).
      { clear - N. revert st N. induction q as [|x q IH]; intros [|st] N; try discriminate; cbn in *; [congruence|]. exact (IH st N). }
      rewrite SK. destruct (b =? c) eqn:Q.
      * apply Nat.eqb_eq in Q. subst b. destruct (IH (S st) ltac:(lia)) as (st' & R & B & I). fold (a_run q (S st) k). rewrite R.
        exists st'. split; [reflexivity|]. split; [lia|]. rewrite I. split; intros H.
        -- now constructor.
        -- inversion H as [l E1|a q' l H' E1|a q' l H' E1]; subst; [exact H'|]. eapply subseq_cons; eauto.
      * apply Nat.eqb_neq in Q. destruct (IH st L) as (st' & R & B & I). fold (a_run q st k). rewrite R. exists st'. split; [reflexivity|]. split; [lia|].
        rewrite I, SK. split; intros H.
        -- now constructor.
        -- inversion H as [l E1|a q' l H' E1|a q' l H' E1]; subst; [contradiction|exact H'].
Qed.

Lemma a_run_app : forall q k1 k2 st st', a_run q st k1 = Ok st' -> a_run q st (k1 ++ k2) = a_run q st' k2.
Proof.
  intros q. induction k1 as [|b k1 IH]; intros k2 st st' H; unfold a_run in *; cbn [fold_res app] in *; [congruence|].
  destruct (a_accept q st b); try discriminate. cbn [bind] in *. apply IH. exact H.
Qed.

(** ** Order *)

Lemma ltb_lex : forall a b, bytes_ltb a b = true <-> lex_lt a b.
Proof.
  induction a as [|x a IH]; intros [|y b]; cbn [bytes_ltb]; split; intro H; try discriminate; try (now inversion H); try reflexivity.
  - constructor.
  - apply orb_prop in H as [H|H].
    + apply Nat.ltb_lt in H. now apply lex_here.
    + apply andb_prop in H as [H1 H2]. apply Nat.eqb_eq in H1. subst. apply lex_there. now apply IH.
  - apply orb_true_intro. inversion H; subst.
    + left. now apply Nat.ltb_lt.
    + right. rewrite Nat.eqb_refl. now apply IH.
Qed.

Lemma lex_trans : forall a b c, lex_lt a b -> lex_lt b c -> lex_lt a c.
Proof.
  intros a b c H. revert c. induction H as [b l|a b l m L|a l m H IH]; intros c H2; inversion H2; subst;
    solve [apply lex_nil | apply lex_here; lia | apply lex_there; auto].
Qed.

Lemma lex_irrefl : forall a, ~ lex_lt a a.
Proof. induction a; intros H; inversion H; subst; [lia|auto]. Qed.

Lemma lex_total : forall a b, lex_lt a b \/ a = b \/ lex_lt b a.
Proof.
  induction a as [|x a IH]; intros [|y b]; auto.
  - left. constructor.
  - right. right. constructor.
  - destruct (lt_eq_lt_dec x y) as [[L|E]|L]; [left; now constructor| |right; right; now constructor].
    subst y. destruct (IH b) as [H|[H|H]]; [left; now constructor|right; left; congruence|right; right; now constructor].
Qed.

(** ** The symbols of a file *)

Section Symbols.
  Variable lower : bytes -> bytes.
  Notation key := (key_of lower).

  Definition key_le (a b : symbol) : Prop := ~ lex_lt (key b) (key a).

  Lemma key_le_trans : forall a b c, key_le a b -> key_le b c -> key_le a c.
  Proof.
    intros a b c H1 H2 H3. destruct (lex_total (key b) (key a)) as [H|[H|H]]; [exact (H1 H)| |].
    - unfold key_le in H2. rewrite H in H2. exact (H2 H3).
    - apply H2. eapply lex_trans; eauto.
  Qed.

  Lemma insert_in : forall s l x, In x (insert_symbol lower s l) <-> x = s \/ In x l.
  Proof.
    intros s l x. induction l as [|y l IH]; cbn [insert_symbol]; [cbn; intuition|].
    destruct (bytes_ltb _ _); cbn [In]; [rewrite IH|]; intuition.
  Qed.

  Lemma insert_sorted : forall s l, StronglySorted key_le l -> StronglySorted key_le (insert_symbol lower s l).
  Proof.
    intros s l H. induction H as [|y l H IH F]; cbn [insert_symbol]; [repeat constructor|].
    destruct (bytes_ltb (lower (sy_name y)) (lower (sy_name s))) eqn:E.
    - constructor; [exact IH|]. rewrite Forall_forall in *. intros x I. apply insert_in in I as [->|I]; [|auto].
      apply ltb_lex in E. intros Q. exact (lex_irrefl _ (lex_trans _ _ _ E Q)).
    - constructor; [now constructor|]. rewrite Forall_forall in *.
      assert (SY : key_le s y). { intros Q. apply ltb_lex in Q. unfold key_of in Q. rewrite Q in E. discriminate. }
      intros x [<-|I]; [exact SY|]. eapply key_le_trans; eauto.
  Qed.

  Lemma sort_sorted : forall l, StronglySorted key_le (sort_symbols lower l).
  Proof. induction l; cbn [sort_symbols]; [constructor|]. now apply insert_sorted. Qed.

  Lemma sort_in : forall l x, In x (sort_symbols lower l) <-> In x l.
  Proof. induction l as [|s l IH]; intros x; cbn [sort_symbols]; [reflexivity|]. rewrite insert_in, IH. cbn. intuition. Qed.

  (** Stability: filtering by key commutes with sorting. *)
  Definition has_key (k : bytes) (s : symbol) : bool := bytes_eqb (key s) k.

  Lemma insert_filter : forall k s l, StronglySorted key_le l ->
    filter (has_key k) (insert_symbol lower s l) = (if has_key k s then [s] else []) ++ filter (has_key k) l.
  Proof.
    intros k s l H. induction H as [|y l H IH F]; cbn [insert_symbol filter].
    - destruct (has_key k s); reflexivity.
    - destruct (bytes_ltb (lower (sy_name y)) (lower (sy_name s))) eqn:E; cbn [filter].
      + rewrite IH. destruct (has_key k y) eqn:Y, (has_key k s) eqn:S'; try reflexivity.
        exfalso. apply ltb_lex in E. unfold has_key in *. apply bytes_eqb_spec in Y, S'. unfold key_of in *. rewrite Y, S' in E. exact (lex_irrefl _ E).
      + destruct (has_key k s); reflexivity.
  Qed.

  Lemma sort_filter : forall k l, filter (has_key k) (sort_symbols lower l) = filter (has_key k) l.
  Proof.
    intros k. induction l as [|s l IH]; cbn [sort_symbols filter]; [reflexivity|].
    rewrite insert_filter by apply sort_sorted. rewrite IH. destruct (has_key k s); reflexivity.
  Qed.

  (** A symbol is the first with its key iff it heads the filtered list. *)
  Lemma first_named_filter : forall l s, first_named lower l s <-> hd_error (filter (has_key (key s)) l) = Some s.
  Proof.
    intros l s. split.
    - intros (pre & post & -> & N). rewrite filter_app.
      assert (E : filter (has_key (key s)) pre = []).
      { clear - N. induction pre as [|x pre IH]; [reflexivity|]. cbn [filter]. destruct (has_key (key s) x) eqn:E.
        - apply bytes_eqb_spec in E. destruct (N x (or_introl eq_refl) E).
        - apply IH. intros y I. apply N. right. exact I. }
      rewrite E. cbn [filter app]. assert (X : has_key (key s) s = true) by (apply bytes_eqb_spec; reflexivity). now rewrite X.
    - induction l as [|x l IH]; cbn [filter]; intros H; [discriminate|]. destruct (has_key (key s) x) eqn:E.
      + injection H as ->. exists [], l. split; [reflexivity|easy].
      + destruct (IH H) as (pre & post & -> & N). exists (x :: pre), post. split; [reflexivity|].
        intros y [<-|I]; [|auto]. intros Q. apply bytes_eqb_spec in Q. unfold has_key in E. congruence.
  Qed.

  (** Deduplicating a sorted list. *)
  Lemma dedup_from_spec : forall l prev, StronglySorted key_le l -> Forall (fun x => ~ lex_lt (key x) prev) l ->
    StronglySorted lex_lt (map key (dedup_from lower prev l))
    /\ Forall (fun x => lex_lt prev (key x)) (dedup_from lower prev l)
    /\ (forall s, In s (dedup_from lower prev l) <-> key s <> prev /\ hd_error (filter (has_key (key s)) l) = Some s).
  Proof.
    induction l as [|y l IH]; intros prev ST F; cbn [dedup_from].
    - split; [constructor|]. split; [constructor|]. intros s. cbn. split; [easy|]. intros [_ H]. discriminate.
    - inversion ST as [|? ? ST' LE]; subst. inversion F as [|? ? Y F']; subst.
      destruct (bytes_eqb (lower (sy_name y)) prev) eqn:E.
      + apply bytes_eqb_spec in E. destruct (IH prev ST' F') as (A & B & C). split; [exact A|]. split; [exact B|].
        intros s. rewrite C. cbn [filter]. split; intros [N H]; (split; [exact N|]).
        * destruct (has_key (key s) y) eqn:Q; [apply bytes_eqb_spec in Q; unfold key_of in *; congruence|exact H].
        * destruct (has_key (key s) y) eqn:Q; [apply bytes_eqb_spec in Q; unfold key_of in *; congruence|exact H].
      + assert (PY : lex_lt prev (key y)).
        { destruct (lex_total prev (key y)) as [Q|[Q|Q]]; [exact Q| |contradiction].
          exfalso. assert (X : bytes_eqb (lower (sy_name y)) prev = true) by (apply bytes_eqb_spec; symmetry; exact Q). congruence. }
        destruct (IH (key y) ST' LE) as (A & B & C). change (lower (sy_name y)) with (key y).
        split; [|split].
        * cbn [map]. constructor; [exact A|]. rewrite Forall_forall in *. intros k I. apply in_map_iff in I as (x & <- & I). auto.
        * constructor; [exact PY|]. rewrite Forall_forall in *. intros x I. eapply lex_trans; [exact PY|]. auto.
        * intros s. cbn [In filter]. split.
          -- intros [<-|I].
             ++ split; [intros Q; rewrite Q in PY; exact (lex_irrefl _ PY)|].
                assert (X : has_key (key y) y = true) by (apply bytes_eqb_spec; reflexivity). now rewrite X.
             ++ pose proof (proj1 (C s) I) as [N H]. split.
                ** rewrite Forall_forall in B. pose proof (B s I) as Q. intros E2. rewrite E2 in Q. exact (lex_irrefl _ (lex_trans _ _ _ PY Q)).
                ** destruct (has_key (key s) y) eqn:Q; [apply bytes_eqb_spec in Q; congruence|exact H].
          -- intros [N H]. destruct (has_key (key s) y) eqn:Q; [left; injection H as H; exact H|].
             right. apply C. split; [|exact H]. intros E2. assert (X : has_key (key s) y = true) by (apply bytes_eqb_spec; symmetry; exact E2). congruence.
  Qed.

  Lemma dedup_spec : forall l, StronglySorted key_le l ->
    StronglySorted lex_lt (map key (dedup_symbols lower l))
    /\ (forall s, In s (dedup_symbols lower l) <-> hd_error (filter (has_key (key s)) l) = Some s).
  Proof.
    intros [|y l] ST; cbn [dedup_symbols].
    - split; [constructor|]. intros s. cbn. split; [easy|discriminate].
    - inversion ST as [|? ? ST' LE]; subst. destruct (dedup_from_spec l (key y) ST' LE) as (A & B & C).
      change (lower (sy_name y)) with (key y). split.
      + cbn [map]. constructor; [exact A|]. rewrite Forall_forall in *. intros k I. apply in_map_iff in I as (x & <- & I). auto.
      + intros s. cbn [In filter]. rewrite C. split.
        * intros [<-|[N H]].
          -- assert (X : has_key (key y) y = true) by (apply bytes_eqb_spec; reflexivity). now rewrite X.
          -- destruct (has_key (key s) y) eqn:Q; [apply bytes_eqb_spec in Q; congruence|exact H].
        * intros H. destruct (has_key (key s) y) eqn:Q; [left; injection H as H; exact H|]. right. split; [|exact H].
          intros E2. assert (X : has_key (key s) y = true) by (apply bytes_eqb_spec; symmetry; exact E2). congruence.
  Qed.

  Lemma strictly_sorted_ok : forall l, StronglySorted lex_lt l -> strictly_sorted l = true.
  Proof.
    intros l H. induction H as [|a l H IH F]; [reflexivity|]. cbn [strictly_sorted]. destruct l as [|b l]; [reflexivity|].
    inversion F; subst. rewrite IH. now rewrite (proj2 (ltb_lex a b)).
  Qed.

  Lemma combine_seq_in : forall A (l : list A) n k i, In (k, i) (combine l (seq n (length l))) <-> n <= i /\ nth_error l (i - n) = Some k.
  Proof.
    intros A l. induction l as [|a l IH]; intros n k i; cbn [length seq combine In].
    - split; [easy|]. intros [_ H]. destruct (i - n); discriminate.
    - rewrite IH. split.
      + intros [H|[H1 H2]]; [injection H as -> ->; rewrite Nat.sub_diag; auto|].
        split; [lia|]. replace (i - n) with (S (i - S n)) by lia. exact H2.
      + intros [H1 H2]. destruct (Nat.eq_dec i n) as [->|N].
        * rewrite Nat.sub_diag in H2. injection H2 as ->. auto.
        * right. split; [lia|]. replace (i - n) with (S (i - S n)) in H2 by lia. exact H2.
  Qed.

  Lemma combine_fst : forall A (l : list A) n, map fst (combine l (seq n (length l))) = l.
  Proof. intros A l. induction l; intros n; cbn [length seq combine map fst]; [reflexivity|]. now rewrite IHl. Qed.

  (** The whole shape of the computed index. *)
  Lemma index_symbols_shape : forall l, exists l2, index_symbols lower l = Ok (mkFS l2 (combine (map key l2) (seq 0 (length (map key l2)))))
    /\ StronglySorted lex_lt (map key l2) /\ (forall s, In s l2 <-> first_named lower l s).
  Proof.
    intros l. exists (dedup_symbols lower (sort_symbols lower l)).
    destruct (dedup_spec _ (sort_sorted l)) as [A B]. split; [|split; [exact A|]].
    - unfold index_symbols. change (fun s => lower (sy_name s)) with key. rewrite (strictly_sorted_ok _ A). reflexivity.
    - intros s. rewrite B, sort_filter. symmetry. apply first_named_filter.
  Qed.

  Lemma first_exists : forall l s, In s l -> exists s', first_named lower l s' /\ key s' = key s.
  Proof.
    intros l s I. destruct (filter (has_key (key s)) l) as [|x r] eqn:E.
    - assert (X : In s (filter (has_key (key s)) l)) by (apply filter_In; split; [exact I|apply bytes_eqb_spec; reflexivity]). rewrite E in X. destruct X.
    - assert (X : In x (filter (has_key (key s)) l)) by (rewrite E; left; reflexivity).
      apply filter_In in X as [_ X]. apply bytes_eqb_spec in X. exists x. split; [|exact X]. apply first_named_filter. rewrite X, E. reflexivity.
  Qed.

  Lemma first_named_in : forall l s, first_named lower l s -> In s l.
  Proof. intros l s (pre & post & -> & _). apply in_or_app. right. left. reflexivity. Qed.

  Lemma index_symbols_ok : forall l, exists x, index_symbols lower l = Ok x /\ indexes lower l x.
  Proof.
    intros l. destruct (index_symbols_shape l) as (l2 & E & ST & M). eexists. split; [exact E|]. unfold indexes. cbn [fs_map fs_symbols].
    rewrite combine_fst. split; [exact ST|]. split.
    - intros k. rewrite in_map_iff. split.
      + intros (s & K & I). exists s. split; [apply first_named_in; now apply M|exact K].
      + intros (s & I & K). destruct (first_exists l s I) as (s' & F & K'). exists s'. split; [congruence|now apply M].
    - intros k i I. apply combine_seq_in in I as [_ I]. rewrite Nat.sub_0_r in I.
      rewrite nth_error_map in I. destruct (nth_error l2 i) as [s|] eqn:N; [|discriminate]. injection I as I.
      exists s. split; [reflexivity|]. split; [exact I|]. apply M. eapply nth_error_In; eauto.
  Qed.

  (** ** Queries *)

  Lemma search_ok : forall q m, search q m = Ok (map snd (filter (fun e => match a_run q a_start (fst e) with Ok st => a_is_match q st | _ => false end) m)).
  Proof.
    intros q m. unfold search.
    assert (G : filter_res (fun e : bytes * nat => st <- a_run q a_start (fst e);; Ok (a_is_match q st)) m
      = Ok (filter (fun e => match a_run q a_start (fst e) with Ok st => a_is_match q st | _ => false end) m)).
    { induction m as [|e m IH]; [reflexivity|]. cbn [filter_res filter]. destruct (a_run_ok q (fst e) a_start ltac:(unfold a_start; lia)) as (st & R & _).
      rewrite R. cbn [bind]. rewrite IH. cbn [bind]. destruct (a_is_match q st); reflexivity. }
    now rewrite G.
  Qed.

  Definition accepts (q : bytes) (k : bytes) : bool := match a_run q a_start k with Ok st => a_is_match q st | _ => false end.

  Lemma accepts_spec : forall q k, accepts q k = true <-> subseq q k.
  Proof.
    intros q k. unfold accepts. destruct (a_run_ok q k a_start ltac:(unfold a_start; lia)) as (st & R & B & I). rewrite R.
    unfold a_is_match. rewrite Nat.eqb_eq. exact I.
  Qed.

  Lemma sorted_filter : forall A (R : A -> A -> Prop) f l, StronglySorted R l -> StronglySorted R (filter f l).
  Proof.
    intros A R f l H. induction H as [|a l H IH F]; [constructor|]. cbn [filter]. destruct (f a); [|exact IH].
    constructor; [exact IH|]. rewrite Forall_forall in *. intros x I. apply filter_In in I as [I _]. auto.
  Qed.

  Lemma sorted_map : forall A (l : list A) (g : A -> bytes), StronglySorted lex_lt (map g l) <-> StronglySorted (fun a b => lex_lt (g a) (g b)) l.
  Proof.
    intros A l g. induction l as [|a l IH]; cbn [map]; split; intro H; try constructor; inversion H as [|? ? H1 H2]; subst; try (now apply IH).
    - rewrite Forall_forall in *. intros x I. apply H2. now apply in_map.
    - rewrite Forall_forall in *. intros x I. apply in_map_iff in I as (y & <- & I). auto.
  Qed.

  (** The answers from an index with the right contents. *)
  Lemma query_process_ok : forall types q l x, indexes lower l x ->
    exists ans, query_process types q x = Ok ans /\ file_answers lower types q l ans.
  Proof.
    intros types q l x (ST & K & E). unfold query_process. rewrite search_ok. cbn [bind]. fold (accepts (q_query q)).
    set (m' := filter (fun e : bytes * nat => accepts (q_query q) (fst e)) (fs_map x)).
    change (map snd (filter _ (fs_map x))) with (map snd m').
    assert (ST' : StronglySorted lex_lt (map fst m')).
    { apply sorted_map. apply sorted_filter. now apply sorted_map. }
    assert (E' : forall k i, In (k, i) m' -> exists s, nth_error (fs_symbols x) i = Some s /\ key s = k /\ first_named lower l s /\ subseq (q_query q) k).
    { intros k i I. apply filter_In in I as [I A]. destruct (E k i I) as (s & N & Ks & F). exists s. split; [exact N|]. split; [exact Ks|]. split; [exact F|]. now apply accepts_spec. }
    assert (C' : forall s, first_named lower l s -> subseq (q_query q) (key s) -> exists i, In (key s, i) m' /\ nth_error (fs_symbols x) i = Some s).
    { intros s F A. assert (I : In (key s) (map fst (fs_map x))) by (apply K; exists s; split; [now apply first_named_in|reflexivity]).
      apply in_map_iff in I as ([k i] & Q & I). cbn [fst] in Q. subst k. exists i. split.
      - apply filter_In. split; [exact I|]. now apply accepts_spec.
      - destruct (E _ _ I) as (s' & N & Ks & F'). rewrite N. f_equal. apply first_named_filter in F, F'. rewrite Ks in F'. congruence. }
    clearbody m'.
    assert (G : forall m, StronglySorted lex_lt (map fst m) ->
      (forall k i, In (k, i) m -> exists s, nth_error (fs_symbols x) i = Some s /\ key s = k /\ first_named lower l s /\ subseq (q_query q) k) ->
      exists ans, flat_map_res (fun i => s <- index (fs_symbols x) i;; Ok (if q_all q || existsb (Nat.eqb (sy_ty s)) types then [s] else [])) (map snd m) = Ok ans
        /\ StronglySorted lex_lt (map key ans)
        /\ (forall s, In s ans <-> (exists k i, In (k, i) m /\ nth_error (fs_symbols x) i = Some s) /\ (q_all q = true \/ In (sy_ty s) types))
        /\ (forall s, In s ans -> In (key s) (map fst m))).
    { clear. intros m. induction m as [|[k i] m IH]; intros S1 E'.
      - exists []. split; [reflexivity|]. split; [constructor|]. split; [|easy]. intros s. split; [easy|]. intros [(k & i & [] & _) _].
      - cbn [map fst snd] in *. inversion S1 as [|? ? S2 FA]; subst.
        destruct (IH S2) as (ans & R & SA & M & KE); [intros k' i' I; apply E'; right; exact I|].
        destruct (E' k i (or_introl eq_refl)) as (s & N & Ks & F & A).
        cbn [flat_map_res]. unfold index at 1. rewrite N. cbn [unwrap bind]. rewrite R. cbn [bind].
        destruct (q_all q || existsb (Nat.eqb (sy_ty s)) types) eqn:Q.
        + exists (s :: ans). cbn [app]. split; [reflexivity|]. split.
          { cbn [map]. constructor; [exact SA|]. rewrite Forall_forall in *. intros k' I. apply in_map_iff in I as (y & <- & I). rewrite Ks. apply FA. apply KE. exact I. }
          split.
          * intros s'. cbn [In]. rewrite M. split.
            -- intros [<-|[(k' & i' & I & N') T]]; [|split; [exists k', i'; auto|exact T]].
               split; [exists k, i; auto|]. apply orb_prop in Q as [Q|Q]; [auto|]. right. apply existsb_exists in Q as (t & I & Q). apply Nat.eqb_eq in Q. congruence.
            -- intros [(k' & i' & [I|I] & N') T]; [|right; split; [exists k', i'; auto|exact T]]. injection I as <- <-. left. congruence.
          * intros s' [<-|I]; [left; auto|right; auto].
        + exists ans. cbn [app]. split; [reflexivity|]. split; [exact SA|]. split.
          * intros s'. rewrite M. split.
            -- intros [(k' & i' & I & N') T]. split; [exists k', i'; split; [right; exact I|exact N']|exact T].
            -- intros [(k' & i' & [I|I] & N') T]; [|split; [exists k', i'; auto|exact T]]. injection I as <- <-. exfalso.
               rewrite N in N'. injection N' as <-. apply orb_false_elim in Q as [Q1 Q2]. destruct T as [T|T]; [congruence|].
               assert (X : existsb (Nat.eqb (sy_ty s)) types = true) by (apply existsb_exists; exists (sy_ty s); split; [exact T|apply Nat.eqb_refl]). congruence.
          * intros s' I. right. auto. }
    destruct (G m' ST' E') as (ans & R & SA & M & _). exists ans. split; [exact R|]. split; [exact SA|].
    intros s. rewrite M. split.
    - intros [(k & i & I & N) T]. destruct (E' k i I) as (s' & N' & Ks & F & A). rewrite N in N'. injection N' as <-. split; [exact F|]. split; [now rewrite Ks|exact T].
    - intros (F & A & T). split; [|exact T]. destruct (C' s F A) as (i & I & N). eauto.
  Qed.

  (** Visiting the files. *)
  Lemma process_query_ok : forall P limit types q (files : list (P * file_symbols)) (lists : list (list symbol)) acc,
    Forall2 (fun l x => indexes lower l (snd x)) lists files -> length acc <= limit ->
    exists n anss, n <= length files
      /\ Forall2 (file_answers lower types q) (firstn n lists) anss
      /\ process_query limit types files q acc = Ok (acc ++ concat (map (fun x => map (fun s => (fst (fst x), s)) (snd x)) (combine (firstn n files) anss)))
      /\ (n < length files -> limit < length acc + length (concat anss))
      /\ (forall k, k < n -> length acc + length (concat (firstn k anss)) <= limit).
  Proof.
    intros P limit types q files. induction files as [|[p x] files IH]; intros lists acc F L; inversion F as [|l ? ls ? I F']; subst; cbn [process_query].
    - exists 0, []. split; [lia|]. split; [constructor|]. split; [cbn; now rewrite app_nil_r|]. split; [cbn; lia|lia].
    - cbn [snd] in I. destruct (query_process_ok types q l x I) as (ans & R & FA). rewrite R. cbn [bind].
      destruct (limit <? length (acc ++ map (fun s => (p, s)) ans)) eqn:Q.
      + apply Nat.ltb_lt in Q. rewrite app_length, map_length in Q. exists 1, [ans]. split; [cbn; lia|]. split; [constructor; [exact FA|constructor]|].
        split; [cbn; now rewrite app_nil_r|]. split; [intros _; cbn; rewrite app_nil_r; exact Q|].
        intros k K. replace k with 0 by lia. cbn. lia.
      + apply Nat.ltb_ge in Q. destruct (IH ls (acc ++ map (fun s => (p, s)) ans) F' Q) as (n & anss & N & FF & E & Z1 & Z2).
        rewrite app_length, map_length in Z1, Z2. exists (S n), (ans :: anss). split; [cbn; lia|]. split; [cbn [firstn]; constructor; auto|].
        split; [rewrite E; cbn; now rewrite app_assoc|]. split.
        * intros K. cbn [length concat] in *. rewrite app_length. specialize (Z1 ltac:(lia)). lia.
        * intros [|k] K; cbn [firstn concat]; [cbn [length]; lia|]. rewrite app_length. specialize (Z2 k ltac:(lia)). lia.
  Qed.

  Lemma Forall2_length : forall A B (R : A -> B -> Prop) l m, Forall2 R l m -> length l = length m.
  Proof. intros A B R l m F. induction F; cbn; congruence. Qed.

  Lemma visited_length : forall P (files : list (P * file_symbols)) (anss : list (list symbol)), length anss = length files ->
    length (concat (map (fun x => map (fun s => (fst (fst x), s)) (snd x)) (combine files anss))) = length (concat anss).
  Proof.
    intros P. induction files as [|[p x] files IH]; intros [|a anss] L; try discriminate; [reflexivity|]. cbn [combine map concat fst snd].
    rewrite !app_length, map_length, IH; [reflexivity|]. cbn in L. lia.
  Qed.

  Lemma process_query_visited : forall P limit types q (files : list (P * file_symbols)) (lists : list (list symbol)),
    Forall2 (fun l x => indexes lower l (snd x)) lists files ->
    exists r, process_query limit types files q [] = Ok r /\ visited lower limit types q lists files r.
  Proof.
    intros P limit types q files lists F. destruct (process_query_ok P limit types q files lists [] F ltac:(cbn; lia)) as (n & anss & N & FF & E & Z1 & Z2).
    eexists. split; [exact E|]. exists n, anss. split; [exact N|]. split; [exact FF|]. split; [reflexivity|]. split; [|exact Z2].
    cbn [app]. pose proof (Forall2_length _ _ _ _ _ FF) as L1. pose proof (Forall2_length _ _ _ _ _ F) as L2. rewrite firstn_length in L1.
    rewrite visited_length; [exact Z1|]. rewrite firstn_length. lia.
  Qed.
End Symbols.

(** ** The symbols found in a tree *)

Section Found.
  Variable f : file.
  Variable T : tree.
  Variable WF : wf_file f T.
  Variable CT : char_tree (f_text f) T.
  Variables (defs : list nat) (ident : nat).

  Let ST : stores (f_nodes f) T := proj1 WF.

  Definition found (n : nat) (l : list (bytes * nat)) : Prop :=
    (exists name, defines f T defs ident n name /\ l = [(name, n)]) \/ ((forall name, ~ defines f T defs ident n name) /\ l = []).

  Lemma visit_found : forall n p par t acc, At T n p par t ->
    exists l, found n l /\
      (ty <- node_ty (f_nodes f) n ;;
       if existsb (Nat.eqb ty) defs then
         c <- child_of_type (f_nodes f) n ident ;;
         match c with
         | None => Ok acc
         | Some m => t <- node_text f m ;; s <- as_str t ;; Ok (acc ++ [(s, n)])
         end
       else Ok acc) = Ok (acc ++ l).
  Proof.
    intros n p par t acc A. rewrite (ty_ok _ _ ST _ _ _ _ A). cbn [bind].
    destruct (existsb (Nat.eqb (t_ty t)) defs) eqn:E.
    - apply existsb_exists in E as (ty & I & Q). apply Nat.eqb_eq in Q. subst ty.
      destruct (child_of_type_ok (f_nodes f) T ST n p par t ident A) as ([c|] & -> & H); cbn [bind].
      + assert (H0 := H). destruct H0 as (cs & pre & post & _ & _ & (pc & parc & tc & AC & _) & _).
        destruct (node_str f T WF CT c pc parc tc AC) as (x & -> & X). cbn [bind]. rewrite X. cbn [bind].
        exists [(sub pc (pc + tlen tc) (f_text f), n)]. split; [|reflexivity].
        left. exists (sub pc (pc + tlen tc) (f_text f)). split; [|reflexivity]. exists p, par, t, c, pc, parc, tc. auto.
      + exists []. split; [|now rewrite app_nil_r]. right. split; [|reflexivity].
        intros name (p' & par' & t' & c & pc & parc & tc & _ & _ & FC & _). exact (H c FC).
    - exists []. split; [|now rewrite app_nil_r]. right. split; [|reflexivity].
      intros name (p' & par' & t' & c & pc & parc & tc & A' & I & _). destruct (At_unique _ _ _ _ _ _ _ _ A A') as (_ & _ & <-).
      assert (X : existsb (Nat.eqb (t_ty t)) defs = true) by (apply existsb_exists; exists (t_ty t); split; [exact I|apply Nat.eqb_refl]). congruence.
  Qed.

  Lemma process_symbols_ok : exists ls, Forall2 found (post T 0) ls /\ process_symbols f defs ident = Ok (concat ls).
  Proof.
    unfold process_symbols, root. rewrite (bottom_up_ok _ _ ST _ _ _ _ _ _ _ (At_root T)).
    assert (V : forall m, In m (post T 0) -> exists p q t, At T m p q t).
    { intros m I. apply post_in in I. apply At_total. lia. }
    revert V. generalize (post T 0). intros l V.
    enough (G : forall acc, exists ls, Forall2 found l ls /\ fold_res (fun acc n =>
       ty <- node_ty (f_nodes f) n ;;
       if existsb (Nat.eqb ty) defs then
         c <- child_of_type (f_nodes f) n ident ;;
         match c with
         | None => Ok acc
         | Some m => t <- node_text f m ;; s <- as_str t ;; Ok (acc ++ [(s, n)])
         end
       else Ok acc) acc l = Ok (acc ++ concat ls)) by exact (G []).
    induction l as [|n l IH]; intros acc.
    - exists []. split; [constructor|]. cbn. now rewrite app_nil_r.
    - destruct (V n (or_introl eq_refl)) as (p & par & t & A). destruct (visit_found n p par t acc A) as (x & F & E).
      destruct (IH (fun m I => V m (or_intror I)) (acc ++ x)) as (ls & FF & E2). exists (x :: ls). split; [constructor; auto|].
      cbn [fold_res]. rewrite E. cbn [bind]. rewrite E2. cbn [concat]. now rewrite app_assoc.
  Qed.

  Lemma defines_unique : forall n a b, defines f T defs ident n a -> defines f T defs ident n b -> a = b.
  Proof.
    intros n a b (p & par & t & c & pc & parc & tc & A & _ & FC & AC & ->) (p' & par' & t' & c' & pc' & parc' & tc' & A' & _ & FC' & AC' & ->).
    assert (c = c').
    { destruct (child_of_type_ok (f_nodes f) T ST n p par t ident A) as (o & _ & _).
      destruct FC as (cs & pre & post & C & -> & H & N), FC' as (cs' & pre' & post' & C' & -> & H' & N'). rewrite C in C'. injection C' as E'.
      clear - E' H H' N N'. revert pre' E' N'. induction pre as [|x pre IH]; intros [|y pre'] E' N'; cbn [app] in E'; injection E' as E1 E2.
      - exact E1.
      - subst y. destruct (N' c (or_introl eq_refl) H).
      - subst x. destruct (N c' (or_introl eq_refl) H').
      - apply (IH (fun z I => N z (or_intror I)) pre' E2 (fun z I => N' z (or_intror I))). }
    subst c'. destruct (At_unique _ _ _ _ _ _ _ _ AC AC') as (-> & -> & ->). reflexivity.
  Qed.

  Lemma file_symbols_ok : forall lower cs, f_text f = concat cs -> Forall utf8_char cs ->
    exists order ls x, subtree (f_nodes f) root = Ok order
      /\ Forall2 (node_symbols f T defs ident) order ls
      /\ file_symbols_new lower f defs ident = Ok x /\ indexes lower (concat ls) x.
  Proof.
    intros lower cs TX U. destruct process_symbols_ok as (ls & F & E). exists (post T 0). unfold file_symbols_new. rewrite E. cbn [bind].
    assert (G : forall order ls, Forall2 found order ls -> exists ss, Forall2 (node_symbols f T defs ident) order ss /\
      flat_map_res (fun x => ty <- node_ty (f_nodes f) (snd x) ;; r <- node_range (f_nodes f) (snd x) ;;
              a <- translate (line_index_new (f_text f)) (rstart r) ;; b <- translate (line_index_new (f_text f)) (rend r) ;;
              Ok [mkSymbol ty (fst x) r (a, b)]) (concat ls) = Ok (concat ss)).
    { clear E F ls. intros order ls F. induction F as [|n l order ls H F IH].
      - exists []. split; [constructor|reflexivity].
      - destruct IH as (ss & FF & E). destruct H as [(name & D & ->)|(D & ->)].
        + assert (D0 := D). destruct D0 as (p & par & t & _ & _ & _ & _ & A & _).
          destruct (translate_ok cs p U) as (l1 & c1 & E1 & L1). destruct (translate_ok cs (p + tlen t) U) as (l2 & c2 & E2 & L2). rewrite <- TX in *.
          exists ([mkSymbol (t_ty t) name (mkRange p (p + tlen t)) ((l1, c1), (l2, c2))] :: ss). split.
          * constructor; [|exact FF]. now apply (ns_some f T defs ident n name p par t).
          * cbn [concat app flat_map_res snd fst]. rewrite (ty_ok _ _ ST _ _ _ _ A), (range_ok _ _ ST _ _ _ _ A). cbn [bind rstart rend].
            rewrite E1, E2. cbn [bind]. rewrite E. reflexivity.
        + exists ([] :: ss). split; [constructor; [now apply ns_none|exact FF]|exact E]. }
    destruct (G _ _ F) as (ss & FF & ->). cbn [bind]. destruct (index_symbols_ok lower (concat ss)) as (x & EX & IX).
    exists ss, x. split; [exact (subtree_ok _ _ ST _ _ _ _ (At_root T))|]. split; [exact FF|]. split; [exact EX|exact IX].
  Qed.
End Found.

(** ** The file index *)

Section Indxr.
  Variable content V : Type.
  Variable mapper : content -> option V.
  Variable passes : list bytes -> bool.
  Notation fs_state := (fs_state content).
  Notation sets := (sets content V mapper passes).
  Notation clears := (clears content V mapper passes).
  Notation ignores := (ignores content V mapper passes).
  Notation change_at := (change_at content V mapper passes).
  Notation get := (im_get V).

  Lemma path_eqb_spec : forall a b, path_eqb a b = true <-> a = b.
  Proof. apply list_eqb_spec. apply bytes_eqb_spec. Qed.

  Lemma get_remove : forall m p k, get (im_remove V m p) k = if path_eqb p k then None else get m k.
  Proof.
    intros m p k. unfold im_get, im_remove. induction m as [|[q v] m IH]; cbn [filter find_first fst option_map].
    - destruct (path_eqb p k); reflexivity.
    - destruct (path_eqb q p) eqn:E; cbn [negb].
      + rewrite IH. apply path_eqb_spec in E. subst q. destruct (path_eqb p k); reflexivity.
      + cbn [find_first fst]. destruct (path_eqb q k) eqn:Q; cbn [option_map snd].
        * apply path_eqb_spec in Q. subst q. destruct (path_eqb p k) eqn:R; [|reflexivity].
          apply path_eqb_spec in R. subst p. rewrite (proj2 (path_eqb_spec k k) eq_refl) in E. discriminate.
        * exact IH.
  Qed.

  Lemma get_insert : forall m p v k, get (im_insert V m p v) k = if path_eqb p k then Some v else get m k.
  Proof.
    intros m p v k. unfold im_insert. unfold im_get at 1. cbn [find_first fst]. destruct (path_eqb p k) eqn:E; [reflexivity|].
    fold (get (im_remove V m p) k). rewrite get_remove, E. reflexivity.
  Qed.

  Lemma under_spec : forall d p, under d p = true <-> inside d p.
  Proof.
    induction d as [|a d IH]; intros p; cbn [under].
    - split; [exists p; reflexivity|reflexivity].
    - destruct p as [|b p]; [split; [discriminate|intros [r E]; discriminate]|]. rewrite andb_true_iff, bytes_eqb_spec, IH. split.
      + intros [-> [r ->]]. exists r. reflexivity.
      + intros [r E]. injection E as -> ->. split; [reflexivity|exists r; reflexivity].
  Qed.

  Lemma is_dir_spec : forall (s : fs_state) p, fs_is_dir content s p = true <-> dir_at content s p.
  Proof.
    intros s p. unfold fs_is_dir, dir_at. rewrite existsb_exists. split.
    - intros (x & I & E). apply path_eqb_spec in E. now subst.
    - intros I. exists p. split; [exact I|now apply path_eqb_spec].
  Qed.

  Lemma read_some : forall (s : fs_state) p c, fs_read content s p = Some c -> In (p, c) (fs_files content s).
  Proof.
    intros s p c. unfold fs_read. induction (fs_files content s) as [|[q d] l IH]; cbn [find_first fst option_map snd]; [discriminate|].
    destruct (path_eqb q p) eqn:E; intros H.
    - injection H as ->. apply path_eqb_spec in E. subst. left. reflexivity.
    - right. auto.
  Qed.

  Lemma read_none : forall (s : fs_state) p, fs_read content s p = None -> ~ file_at content s p.
  Proof.
    intros s p H [c I]. unfold fs_read in H. induction (fs_files content s) as [|[q d] l IH]; [destruct I|].
    cbn [find_first fst option_map] in H. destruct (path_eqb q p) eqn:E; [discriminate|].
    destruct I as [I|I]; [injection I as -> ->; rewrite (proj2 (path_eqb_spec p p) eq_refl) in E; discriminate|auto].
  Qed.

  Lemma map_file_some : forall s p v, map_file content V mapper s p = Some v <-> value_at content V mapper s p v.
  Proof.
    intros s p v. unfold map_file, value_at. destruct (fs_read content s p) as [c|]; split; intro H.
    - exists c. auto.
    - destruct H as (c' & E & H). congruence.
    - discriminate.
    - destruct H as (c' & E & H). discriminate.
  Qed.

  Lemma map_file_none : forall s p, map_file content V mapper s p = None <-> ~ has_value content V mapper s p.
  Proof.
    intros s p. split.
    - intros H [v X]. apply map_file_some in X. congruence.
    - intros H. destruct (map_file content V mapper s p) as [v|] eqn:E; [|reflexivity]. destruct H. exists v. now apply map_file_some.
  Qed.

  Lemma exists_spec : forall (s : fs_state) p, fs_exists content s p = true <-> dir_at content s p \/ file_at content s p.
  Proof.
    intros s p. unfold fs_exists. rewrite orb_true_iff, is_dir_spec. split; (intros [H|H]; [left; exact H|right]).
    - destruct (fs_read content s p) as [c|] eqn:E; [|discriminate]. exists c. now apply read_some.
    - destruct (fs_read content s p) as [c|] eqn:E; [reflexivity|]. destruct (read_none _ _ E H).
  Qed.

  Lemma value_file : forall s p v, value_at content V mapper s p v -> file_at content s p.
  Proof. intros s p v (c & E & _). exists c. now apply read_some. Qed.

  (** Adding the files of a walk. *)
  Lemma walk_get : forall s ks m k,
    get (fold_left (fun m k => match map_file content V mapper s k with Some v => im_insert V m k v | None => m end) ks m) k
    = if existsb (path_eqb k) ks then match map_file content V mapper s k with Some v => Some v | None => get m k end else get m k.
  Proof.
    intros s. induction ks as [|x ks IH]; intros m k; cbn [fold_left existsb]; [reflexivity|]. rewrite IH.
    destruct (path_eqb k x) eqn:E; cbn [orb].
    - apply path_eqb_spec in E. subst x. destruct (map_file content V mapper s k) as [v|] eqn:M.
      + rewrite get_insert. rewrite (proj2 (path_eqb_spec k k) eq_refl). destruct (existsb (path_eqb k) ks); reflexivity.
      + destruct (existsb (path_eqb k) ks); reflexivity.
    - assert (G : get (match map_file content V mapper s x with Some v => im_insert V m x v | None => m end) k = get m k).
      { destruct (map_file content V mapper s x) as [v|]; [|reflexivity]. rewrite get_insert.
        destruct (path_eqb x k) eqn:Q; [|reflexivity]. apply path_eqb_spec in Q. subst x. rewrite (proj2 (path_eqb_spec k k) eq_refl) in E. discriminate. }
      rewrite G. reflexivity.
  Qed.

  Lemma walk_mem : forall s n k, existsb (path_eqb k) (filter passes (walk content s n)) = true <-> passes k = true /\ inside n k /\ file_at content s k.
  Proof.
    intros s n k. rewrite existsb_exists. unfold walk. split.
    - intros (x & I & E). apply path_eqb_spec in E. subst x. apply filter_In in I as [I P]. apply filter_In in I as [I U].
      apply in_map_iff in I as ([q c] & Q & I). cbn in Q. subst q. split; [exact P|]. split; [now apply under_spec|]. exists c. exact I.
    - intros (P & U & c & I). exists k. split; [|now apply path_eqb_spec]. apply filter_In. split; [|exact P]. apply filter_In. split; [|now apply under_spec].
      apply in_map_iff. exists (k, c). auto.
  Qed.

  (** What one change does to one path. *)
  Lemma change_get : forall s n m p,
    (exists v, sets s n p v /\ get (change_at s n m) p = Some v)
    \/ (clears s n p /\ get (change_at s n m) p = None)
    \/ (ignores s n p /\ get (change_at s n m) p = get m p).
  Proof.
    intros s n m p. unfold IndexModel.change_at, change.
    destruct (fs_is_dir content s n) eqn:D.
    - assert (X : fs_exists content s n = true) by (unfold fs_exists; now rewrite D). rewrite X.
      apply is_dir_spec in D. rewrite walk_get.
      destruct (existsb (path_eqb p) (filter passes (walk content s n))) eqn:W.
      + apply walk_mem in W as (P & U & FA). destruct (map_file content V mapper s p) as [v|] eqn:M.
        * left. exists v. split; [|reflexivity]. split; [exact P|]. split; [now apply map_file_some|]. right. auto.
        * right. right. split; [|reflexivity]. split.
          -- intros v (_ & Y & _). apply map_file_some in Y. congruence.
          -- intros (-> & ND & _). contradiction.
      + right. right. split; [|reflexivity]. split.
        * intros v (P & Y & [(-> & ND)|(_ & U)]); [contradiction|].
          assert (Z : existsb (path_eqb p) (filter passes (walk content s n)) = true) by (apply walk_mem; split; [exact P|]; split; [exact U|]; eapply value_file; eauto). congruence.
        * intros (-> & ND & _). contradiction.
    - assert (ND : ~ dir_at content s n) by (intros Q; apply is_dir_spec in Q; congruence).
      destruct (fs_exists content s n) eqn:X.
      + apply exists_spec in X as [X|FA]; [contradiction|].
        destruct (passes n) eqn:P.
        * destruct (map_file content V mapper s n) as [v|] eqn:M.
          -- rewrite get_insert. destruct (path_eqb n p) eqn:E.
             ++ apply path_eqb_spec in E. subst p. left. exists v. split; [|reflexivity]. split; [exact P|]. split; [now apply map_file_some|]. left. auto.
             ++ assert (NE : n <> p) by (intros Q; apply path_eqb_spec in Q; congruence). right. right. split; [|reflexivity]. split.
                ** intros w (_ & _ & [(Q & _)|(Q & _)]); contradiction.
                ** intros (Q & _). contradiction.
          -- rewrite get_remove. destruct (path_eqb n p) eqn:E.
             ++ apply path_eqb_spec in E. subst p. right. left. split; [|reflexivity]. split; [reflexivity|]. split; [exact ND|]. right. split; [exact P|]. now apply map_file_none.
             ++ assert (NE : n <> p) by (intros Q; apply path_eqb_spec in Q; congruence). right. right. split; [|reflexivity]. split.
                ** intros w (_ & _ & [(Q & _)|(Q & _)]); contradiction.
                ** intros (Q & _). contradiction.
        * right. right. split; [|reflexivity]. split.
          -- intros w (P' & _ & [(Q & _)|(Q & _)]); [congruence|contradiction].
          -- intros (<- & _ & [Q|[Q _]]); [contradiction|congruence].
      + assert (NF : ~ file_at content s n). { intros Q. rewrite (proj2 (exists_spec s n) (or_intror Q)) in X. discriminate. }
        rewrite get_remove. destruct (path_eqb n p) eqn:E.
        * apply path_eqb_spec in E. subst p. right. left. split; [|reflexivity]. split; [reflexivity|]. auto.
        * assert (NE : n <> p) by (intros Q; apply path_eqb_spec in Q; congruence). right. right. split; [|reflexivity]. split.
          -- intros w (_ & _ & [(Q & _)|(Q & _)]); contradiction.
          -- intros (Q & _). contradiction.
  Qed.

  Notation run := (run_changes content V mapper passes).
  Notation entry := (entry content V mapper passes).

  Lemma run_snoc : forall evs s n m, run (evs ++ [(s, n)]) m = change_at s n (run evs m).
  Proof. induction evs as [|[s' n'] evs IH]; intros s n m; cbn [app run_changes]; [reflexivity|apply IH]. Qed.

  Lemma run_entry : forall evs p, entry p evs (get (run evs []) p).
  Proof.
    intros evs p. induction evs as [|[s n] evs IH] using rev_ind; [constructor|]. rewrite run_snoc.
    destruct (change_get s n (run evs []) p) as [(v & H & ->)|[(H & ->)|(H & ->)]].
    - now apply e_set.
    - now apply e_clear.
    - apply e_same; [exact H|exact IH].
  Qed.

  Lemma sets_unique : forall s n p v w, sets s n p v -> sets s n p w -> v = w.
  Proof. intros s n p v w (_ & (c & E & H) & _) (_ & (c' & E' & H') & _). congruence. Qed.

  Lemma entry_unique : forall p evs o, entry p evs o -> forall o', entry p evs o' -> o = o'.
  Proof.
    intros p evs o H. induction H as [|evs s n v X|evs s n X|evs s n o X H IH]; intros o' H'.
    - inversion H' as [|e s n v X E|e s n X E|e s n o X H E]; [reflexivity|destruct e; discriminate..].
    - inversion H' as [E|e s' n' v' X' E|e s' n' X' E|e s' n' o2 X' H2 E]; [destruct evs; discriminate|..]; apply app_inj_tail in E as [-> E]; injection E as -> ->.
      + f_equal. exact (sets_unique _ _ _ _ _ X X').
      + destruct X as (P & Y & [(Q & ND)|(DN & _)]), X' as (EQ & ND' & R).
        * destruct R as [R|[_ R]]; exfalso; apply R; [eapply value_file; eauto|exists v; exact Y].
        * subst. contradiction.
      + destruct X' as [X' _]. destruct (X' _ X).
    - inversion H' as [E|e s' n' v' X' E|e s' n' X' E|e s' n' o2 X' H2 E]; [destruct evs; discriminate|..]; apply app_inj_tail in E as [-> E]; injection E as -> ->.
      + destruct X' as (P & Y & [(Q & ND)|(DN & _)]), X as (EQ & ND' & R).
        * destruct R as [R|[_ R]]; exfalso; apply R; [eapply value_file; eauto|exists v'; exact Y].
        * subst. contradiction.
      + reflexivity.
      + destruct X' as [_ X']. contradiction.
    - inversion H' as [E|e s' n' v' X' E|e s' n' X' E|e s' n' o2 X' H2 E]; [destruct evs; discriminate|..]; apply app_inj_tail in E as [-> E]; injection E as -> ->.
      + destruct X as [X _]. destruct (X _ X').
      + destruct X as [_ X]. contradiction.
      + exact (IH _ H2).
  Qed.

  (** Invariants that hold whatever the file system does while a change is handled. *)
  Lemma remove_in : forall m p x, In x (im_remove V m p) -> In x m /\ fst x <> p.
  Proof.
    intros m p x I. apply filter_In in I as [I N]. split; [exact I|]. intros Q. apply path_eqb_spec in Q. rewrite Q in N. discriminate.
  Qed.

  Lemma remove_nodup : forall m p, NoDup (map fst m) -> NoDup (map fst (im_remove V m p)).
  Proof.
    intros m p. unfold im_remove. induction m as [|[q v] m IH]; intros N; cbn [filter map fst] in *; [constructor|]. inversion N as [|? ? N1 N2]; subst.
    destruct (negb (path_eqb q p)); [|auto]. cbn [map fst]. constructor; [|auto]. intros I. apply N1.
    apply in_map_iff in I as (x & E & I). apply filter_In in I as [I _]. apply in_map_iff. exists x. auto.
  Qed.

  Lemma filter_nodup : forall (g : path * V -> bool) m, NoDup (map fst m) -> NoDup (map fst (filter g m)).
  Proof.
    intros g. induction m as [|x m IH]; intros N; cbn [filter map] in *; [constructor|]. inversion N as [|? ? N1 N2]; subst.
    destruct (g x); [|auto]. cbn [map]. constructor; [|auto]. intros I. apply N1.
    apply in_map_iff in I as (y & E & I). apply filter_In in I as [I _]. apply in_map_iff. exists y. auto.
  Qed.

  Lemma insert_nodup : forall m p v, NoDup (map fst m) -> NoDup (map fst (im_insert V m p v)).
  Proof.
    intros m p v N. unfold im_insert. cbn [map fst]. constructor; [|now apply remove_nodup].
    intros I. apply in_map_iff in I as (x & E & I). apply remove_in in I as [_ I]. contradiction.
  Qed.

  Lemma change_nodup : forall s1 s2 s3 reads p m, NoDup (map fst m) -> NoDup (map fst (change content V mapper passes s1 s2 s3 reads p m)).
  Proof.
    intros s1 s2 s3 reads p m N. unfold change. destruct (fs_is_dir content s2 p), (fs_exists content s1 p).
    - generalize (filter passes (walk content s3 p)). intros l. revert m N. induction l as [|k l IH]; intros m N; cbn [fold_left]; [exact N|].
      apply IH. destruct (map_file content V mapper (reads k) k); [now apply insert_nodup|exact N].
    - now apply filter_nodup.
    - destruct (passes p); [|exact N]. destruct (map_file content V mapper (reads p) p); [now apply insert_nodup|now apply remove_nodup].
    - now apply remove_nodup.
  Qed.

  (** Entries are old or the value of a file read during the change. *)
  Lemma change_in : forall s1 s2 s3 reads p m k v, In (k, v) (change content V mapper passes s1 s2 s3 reads p m) ->
    In (k, v) m \/ (passes k = true /\ value_at content V mapper (reads k) k v).
  Proof.
    intros s1 s2 s3 reads p m k v. unfold change. destruct (fs_is_dir content s2 p), (fs_exists content s1 p).
    - assert (PA : forall x, In x (filter passes (walk content s3 p)) -> passes x = true) by (intros x I; apply filter_In in I; tauto).
      revert PA. generalize (filter passes (walk content s3 p)). intros l PA. revert m. induction l as [|x l IH]; intros m I; cbn [fold_left] in I; [left; exact I|].
      apply IH in I; [|intros y J; apply PA; right; exact J]. destruct I as [I|I]; [|right; exact I].
      destruct (map_file content V mapper (reads x) x) as [w|] eqn:M; [|left; exact I].
      destruct I as [I|I]; [|left; apply remove_in in I; tauto]. injection I as -> ->. right. split; [apply PA; left; reflexivity|now apply map_file_some].
    - intros I. apply filter_In in I. tauto.
    - destruct (passes p) eqn:P; [|auto]. destruct (map_file content V mapper (reads p) p) as [w|] eqn:M; intros I.
      + destruct I as [I|I]; [|left; apply remove_in in I; tauto]. injection I as -> ->. right. split; [exact P|now apply map_file_some].
      + left. apply remove_in in I. tauto.
    - intros I. apply remove_in in I. tauto.
  Qed.

  Lemma get_in : forall m p v, NoDup (map fst m) -> (get m p = Some v <-> In (p, v) m).
  Proof.
    intros m p v N. unfold im_get. induction m as [|[q w] m IH]; cbn [find_first fst option_map In]; [split; [discriminate|easy]|].
    inversion N as [|? ? N1 N2]; subst. destruct (path_eqb q p) eqn:E; cbn [option_map snd].
    - apply path_eqb_spec in E. subst q. split; [intros H; injection H as ->; auto|]. intros [H|H]; [congruence|].
      exfalso. apply N1. cbn [fst]. apply in_map_iff. exists (p, v). auto.
    - rewrite IH by exact N2. split; [auto|]. intros [H|H]; [|exact H]. injection H as -> ->. rewrite (proj2 (path_eqb_spec p p) eq_refl) in E. discriminate.
  Qed.

  (** The entry follows the file if the file's last change was notified. *)
  Lemma entry_stable : forall p s0 post m,
    get m p = (if passes p then map_file content V mapper s0 p else None) ->
    Forall (fun x => ~ dir_at content (fst x) p /\ fs_read content (fst x) p = fs_read content s0 p) post ->
    get (run post m) p = (if passes p then map_file content V mapper s0 p else None).
  Proof.
    intros p s0 post. induction post as [|[s n] post IH]; intros m G F; cbn [run_changes]; [exact G|].
    inversion F as [|? ? [ND RD] F']; subst. cbn [fst] in *. apply IH; [|exact F'].
    assert (ME : map_file content V mapper s p = map_file content V mapper s0 p) by (unfold map_file; now rewrite RD).
    destruct (change_get s n m p) as [(v & (P & Y & _) & ->)|[((_ & _ & R) & ->)|(_ & ->)]].
    - rewrite P. apply map_file_some in Y. congruence.
    - destruct (passes p) eqn:P; [|reflexivity]. destruct R as [R|[_ R]].
      + symmetry. rewrite <- ME. apply map_file_none. intros [v Y]. apply R. eapply value_file; eauto.
      + symmetry. rewrite <- ME. now apply map_file_none.
    - exact G.
  Qed.
End Indxr.
