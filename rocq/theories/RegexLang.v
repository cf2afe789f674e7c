(** What the lexical rules of a language guarantee, whichever of the rules that apply is taken. *)
From Coq Require Import List Arith NArith Bool Lia.
From Verif Require Import Base BaseFacts TextModel EditModel LexModel LexSpec LexProofs TextSpec TextProofs ScanModel ScanSpec ScanProofs
  RegexModel RegexSpec RegexProofs.
Import ListNotations.

(** ** Static checks *)

(** Does the expression match the empty text? *)
Fixpoint nullable (r : regex) : bool :=
  match r with
  | Eps | Star _ => true
  | Chr _ => false
  | Seq a b => nullable a && nullable b
  | Alt a b => nullable a || nullable b
  end.

(** Sets one of which contains the first character of any match. *)
Fixpoint firsts (r : regex) : list cset :=
  match r with
  | Eps => []
  | Chr k => [k]
  | Seq a b => firsts a ++ (if nullable a then firsts b else [])
  | Alt a b => firsts a ++ firsts b
  | Star a => firsts a
  end.

Lemma nullable_ok : forall U r, matches U r [] -> nullable r = true.
Proof.
  intros U r M. remember [] as s eqn:E. induction M as [| | a b x y A IHA B IHB|a b x A IHA|a b x B IHB| |]; cbn [nullable]; try reflexivity.
  - discriminate E.
  - apply app_eq_nil in E. destruct E as [E1 E2]. rewrite (IHA E1), (IHB E2). reflexivity.
  - rewrite IHA by exact E. reflexivity.
  - rewrite IHB by exact E. apply orb_true_r.
Qed.

Lemma firsts_ok : forall U r s, matches U r s -> forall c cs, s = c :: cs -> exists k, In k (firsts r) /\ in_set U k c = true.
Proof.
  intros U r s M. induction M as [|k c0 I|a b x y A IHA B IHB|a b x A IHA|a b x B IHB|a|a x y A IHA B IHB]; intros c cs E; cbn [firsts].
  - discriminate E.
  - injection E as E1 E2. subst c. exists k. split; [left; reflexivity|exact I].
  - destruct x as [|d x].
    + cbn [app] in E. rewrite (nullable_ok _ _ A). destruct (IHB _ _ E) as (k & K & I). exists k. split; [apply in_or_app; right; exact K|exact I].
    + injection E as -> _. destruct (IHA _ _ eq_refl) as (k & K & I). exists k. split; [apply in_or_app; left; exact K|exact I].
  - destruct (IHA _ _ E) as (k & K & I). exists k. split; [apply in_or_app; left; exact K|exact I].
  - destruct (IHB _ _ E) as (k & K & I). exists k. split; [apply in_or_app; right; exact K|exact I].
  - discriminate E.
  - destruct x as [|d x].
    + cbn [app] in E. exact (IHB _ _ E).
    + injection E as -> _. exact (IHA _ _ eq_refl).
Qed.

(** ** The custom functions *)

(** What such a function returns is the length of a non-empty piece that ends between characters. *)
Definition sound (f : bytes -> res (option nat)) : Prop :=
  forall s n, f s = Ok (Some n) -> 0 < n <= length s /\ (utf8 s -> aligned s n).

Lemma suffix_inv : forall s k r, suffix s k = Ok r -> k <= length s /\ r = skipn k s /\ aligned s k.
Proof.
  intros s k r H. unfold suffix, str_index in H. apply guard_ok in H. destruct H as [A H]. apply guard_ok in H. destruct H as [B H].
  injection H as <-. cbn [rstart rend] in *. rewrite !andb_true_iff in *. rewrite ?Nat.leb_le in *.
  split; [lia|]. split; [apply sub_to_end|]. apply boundary_spec. tauto.
Qed.

Lemma aligned_skip : forall s k j, aligned s k -> k <= length s -> aligned (skipn k s) j -> aligned s (k + j).
Proof.
  intros s k j A L [-> | [-> | (b & N & C)]].
  - rewrite Nat.add_0_r. exact A.
  - right. left. rewrite skipn_length. lia.
  - right. right. exists b. rewrite nth_error_skipn in N. split; assumption.
Qed.

Lemma comment_loop_le : forall fuel s len level n, comment_loop fuel s len level = Ok n -> len <= n <= len + length s /\ aligned s (n - len).
Proof.
  induction fuel as [|fuel IH]; intros s len level n H; cbn [comment_loop] in H; [discriminate H|].
  destruct ((length s =? 0) || (level =? 0)). { injection H as <-. split; [lia|]. left. lia. }
  assert (STEP : forall k s' lv, suffix s k = Ok s' -> comment_loop fuel s' (len + k) lv = Ok n -> len <= n <= len + length s /\ aligned s (n - len)).
  { intros k s' lv S X. destruct (suffix_inv _ _ _ S) as (L & -> & A). apply IH in X. rewrite skipn_length in X. destruct X as [X1 X2]. split; [lia|].
    replace (n - len) with (k + (n - (len + k))) by lia. apply aligned_skip; assumption. }
  destruct (is_prefix s_open s).
  - apply bind_ok in H. destruct H as (s' & S & H). exact (STEP _ _ _ S H).
  - destruct (is_prefix s_close s).
    + apply bind_ok in H. destruct H as (s' & S & H). apply bind_ok in H. destruct H as (lv & _ & H). exact (STEP _ _ _ S H).
    + apply bind_ok in H. destruct H as (c & _ & H). apply bind_ok in H. destruct H as (s' & S & H). exact (STEP _ _ _ S H).
Qed.

Lemma block_comment_sound : sound parse_block_comment.
Proof.
  intros s n H. unfold parse_block_comment in H. apply bind_ok in H. destruct H as (s' & S & H). apply bind_ok in H. destruct H as (m & C & H).
  injection H as <-. destruct (suffix_inv _ _ _ S) as (L & -> & A). apply comment_loop_le in C. rewrite skipn_length in C. destruct C as [C1 C2].
  split; [lia|]. intros _. replace m with (2 + (m - 2)) by lia. apply aligned_skip; assumption.
Qed.

Lemma upto_inv : forall s k r, upto s k = Ok r -> k <= length s /\ r = firstn k s.
Proof.
  intros s k r H. unfold upto, str_index in H. apply guard_ok in H. destruct H as [A H]. apply guard_ok in H. destruct H as [B H].
  injection H as <-. cbn [rstart rend] in *. apply andb_true_iff in B. destruct B as [_ B]. apply boundary_spec in B. split.
  { destruct B as [-> | [-> | (b & N & _)]]; [lia|lia|]. apply Nat.lt_le_incl, nth_error_Some. congruence. }
  unfold sub. rewrite Nat.sub_0_r. reflexivity.
Qed.

Lemma raw_string_sound : sound parse_raw_string.
Proof.
  intros s n H. unfold parse_raw_string in H. apply bind_ok in H. destruct H as (q & Q & H). apply bind_ok in H. destruct H as (c & C & H).
  apply bind_ok in H. destruct H as (rest & R & H). destruct (suffix_inv _ _ _ R) as (L & -> & _). destruct (upto_inv _ _ _ C) as (LC & ->).
  destruct (find_sub (firstn q q_hashes) (skipn (q + 1) s)) as [i|] eqn:F; [|discriminate H]. cbn [option_map] in H. injection H as <-.
  apply find_sub_occurs in F. destruct F as ((a & b & E & <-) & MIN).
  assert (ES : s = firstn (q + 1) s ++ a ++ firstn q q_hashes ++ b) by (rewrite <- E; symmetry; apply firstn_skipn).
  pose proof (f_equal (@length nat) ES) as EL. rewrite !app_length, (firstn_length_le s L) in EL. split; [lia|].
  intros U. apply boundary_spec. set (p := firstn (q + 1) s ++ a ++ firstn q q_hashes).
  assert (EP : s = p ++ b) by (unfold p; rewrite <- !app_assoc; exact ES).
  replace (length a + q + 1 + length (firstn q q_hashes)) with (length p) by (unfold p; rewrite !app_length, (firstn_length_le s L); lia).
  rewrite EP at 1. apply boundary_at. destruct q as [|q].
  - (* the first byte is the quote *)
    unfold unwrap in Q. destruct (find_sub [34] s) as [q'|] eqn:FS; [|discriminate Q]. injection Q as ->.
    apply find_sub_occurs in FS. destruct FS as ((a' & b' & E' & LA) & _). destruct a'; [|discriminate LA]. cbn [app] in E'. subst s.
    cbn [firstn app] in *. destruct a as [|x a].
    + apply (utf8_ascii [] 34); [rewrite EP in U; unfold p in U; cbn in U; exact U|lia].
    + exfalso. apply (MIN 0); [cbn; lia|]. exists [], (skipn (0 + 1) (34 :: b')). split; reflexivity.
  - apply (utf8_ascii_app (firstn (S q + 1) s ++ a) (firstn (S q) q_hashes)).
    + rewrite <- app_assoc, <- ES. exact U.
    + discriminate.
    + apply Forall_forall. intros x I. assert (J : In x q_hashes) by (rewrite <- (firstn_skipn (S q) q_hashes); apply in_or_app; left; exact I).
      clear - J. unfold q_hashes in J. destruct J as [<-|J]; [lia|]. apply repeat_spec in J. subst. lia.
Qed.

(** ** Tokens *)
Definition proper_rules (rules : list lex_rule) : Prop :=
  few rules /\ forall r, In r rules -> match r_f r with None => nullable (r_re r) = false | Some f => sound f end.

Lemma utf8_skip : forall s n, utf8 s -> aligned s n -> utf8 (skipn n s).
Proof.
  intros s n U A. apply (utf8_split (firstn n s)); [rewrite firstn_skipn; exact U|]. intros x H. destruct A as [-> | [-> | (b & N & C)]].
  - eapply utf8_head; [exact U|]. exact H.
  - rewrite skipn_all in H. discriminate H.
  - assert (nth_error (skipn n s) 0 = Some b) by (rewrite nth_error_skipn, Nat.add_0_r; exact N).
    destruct (skipn n s) as [|y l]; [discriminate|]. cbn in *. congruence.
Qed.

Lemma utf8_take : forall s n, utf8 s -> aligned s n -> utf8 (firstn n s).
Proof.
  intros s n U A. destruct (utf8_chars s U) as (cs & F & E & _). pose proof (utf8_skip s n U A) as (ds & G & E').
  assert (H : forall cs p, Forall utf8_char cs -> aligned (concat cs) p -> utf8 (firstn p (concat cs))).
  { clear. induction cs as [|c cs IH]; intros p F A; cbn [concat].
    - rewrite firstn_nil. exact utf8_nil.
    - inversion F as [|? ? UC F']; subst. destruct (le_lt_dec (length c) p) as [L|L].
      + rewrite firstn_app. rewrite firstn_all2 by exact L. apply utf8_app; [exists [c]; split; [repeat constructor; apply UC|cbn; rewrite app_nil_r; reflexivity]|].
        apply IH; [exact F'|]. cbn [concat] in A. destruct A as [-> | [-> | (b & N & C)]].
        * left. reflexivity.
        * right. left. rewrite app_length. lia.
        * rewrite nth_error_app2 in N by lia. right. right. eauto.
      + destruct p as [|p]; [exact utf8_nil|]. exfalso. cbn [concat] in A. destruct A as [A | [A | (b & N & C)]].
        * discriminate A.
        * rewrite app_length in A. lia.
        * rewrite nth_error_app1 in N by lia. destruct UC as (V & _). destruct c as [|x c]; [destruct V|]. cbn in N. destruct V as (_ & V).
          rewrite Forall_forall in V. apply nth_error_In in N. apply V in N. congruence. }
  rewrite E. apply H; [exact F|]. rewrite <- E. exact A.
Qed.

(** If every token ends between characters, so do all positions between tokens. *)
Lemma whole_lex : forall lx, progressing lx -> whole_tokens lx -> forall txt toks, tokenizes lx txt toks -> utf8 txt ->
  forall k, aligned txt (lens (firstn k toks)).
Proof.
  intros lx P W txt toks T. induction T as [|txt t ts NE E T IH]; intros U k.
  - rewrite firstn_nil. left. reflexivity.
  - destruct k as [|k]; [left; reflexivity|]. cbn [firstn]. rewrite lens_cons. pose proof (W txt NE U) as A. rewrite E in A.
    destruct (P txt NE) as [P1 P2]. rewrite E in P1, P2. apply aligned_skip; [exact A|lia|]. apply IH. apply utf8_skip; assumption.
Qed.

Section Rules.
  Variables (U : tables) (pick : list (N * nat) -> N * nat) (err : bytes -> nat) (rules : list lex_rule).
  Hypothesis P : picks pick.
  Hypothesis ER : err_ok err.
  Hypothesis PR : proper_rules rules.

  Let lx := regex_lexer U pick err rules.

  Lemma lexer_cases : forall s, (exists r, In r rules /\ tk_ty (lx s) = r_ty r /\ takes U r s (tk_len (lx s))) \/ lx s = mkTok ERROR (err s).
  Proof.
    intros s. unfold lx, regex_lexer. destruct (next_token U pick err rules s) as [t| |] eqn:E; [|right; reflexivity|right; reflexivity].
    destruct (next_token_cases _ _ _ _ _ _ (proj1 PR) P E) as [H|[H _]]; [left; exact H|right; exact H].
  Qed.

  Lemma takes_ok : forall r s n, In r rules -> takes U r s n -> 0 < n <= length s /\ (utf8 s -> aligned s n).
  Proof.
    intros r s n I (cs & rest & E & M & N). pose proof (proj2 PR r I) as C. destruct (r_f r) as [f|].
    - exact (C _ _ N).
    - subst n. pose proof (chars_all s) as A. rewrite E, concat_app in A. split; [|intros US; eapply chars_aligned; eauto].
      rewrite <- A, app_length. pose proof (chars_full s) as FU. rewrite E in FU. destruct cs as [|c cs].
      + rewrite (nullable_ok _ _ M) in C. discriminate C.
      + inversion FU; subst. cbn [concat]. rewrite app_length. destruct c; [congruence|]. cbn [length]. lia.
  Qed.

  Lemma regex_progress : progressing lx.
  Proof.
    intros s NE. destruct (lexer_cases s) as [(r & I & _ & T)|H]; [exact (proj1 (takes_ok _ _ _ I T))|].
    rewrite H. cbn [tk_len]. exact (proj1 (ER s NE)).
  Qed.

  Lemma regex_whole : whole_tokens lx.
  Proof.
    intros s NE US. destruct (lexer_cases s) as [(r & I & _ & T)|H]; [exact (proj2 (takes_ok _ _ _ I T) US)|].
    rewrite H. cbn [tk_len]. exact (proj2 (ER s NE) US).
  Qed.

  Lemma regex_types : forall s, tk_ty (lx s) = ERROR \/ In (tk_ty (lx s)) (map r_ty rules).
  Proof.
    intros s. destruct (lexer_cases s) as [(r & I & -> & _) | ->]; [right|left; reflexivity]. apply in_map. exact I.
  Qed.

  (** Expressions whose matches start with a blank or a slash. *)
  Definition blank_set (k : cset) : bool := match k with Lit b => (b <=? 32) || (b =? 47) | Cls Space => true | _ => false end.
  Definition blank_rule (ws : nat -> bool) (r : lex_rule) : bool :=
    implb (ws (r_ty r)) (negb (nullable (r_re r)) && forallb blank_set (firsts (r_re r))).

  Lemma list_eqb_nat : forall a b, list_eqb Nat.eqb a b = true -> a = b.
  Proof.
    induction a as [|x a IH]; intros [|y b] H; cbn in H; try discriminate H; [reflexivity|]. apply andb_true_iff in H. destruct H as [X H].
    apply Nat.eqb_eq in X. subst. f_equal. auto.
  Qed.

  Lemma regex_blank : tables_ok U -> forall ws, forallb (blank_rule ws) rules = true -> ws ERROR = false ->
    forall b r, ws (tk_ty (lx (b :: r))) = true -> b <= 32 \/ b = 47 \/ 128 <= b.
  Proof.
    intros [TC TA] ws BR WE b rest W. destruct (lexer_cases (b :: rest)) as [(r & I & T & (cs & rest' & E & M & _))|H]; [|rewrite H in W; cbn in W; congruence].
    rewrite forallb_forall in BR. specialize (BR r I). unfold blank_rule in BR. rewrite <- T, W in BR. cbn [implb] in BR.
    apply andb_true_iff in BR. destruct BR as [NU FB]. rewrite negb_true_iff in NU. destruct cs as [|c cs].
    { rewrite (nullable_ok _ _ M) in NU. discriminate NU. }
    destruct (firsts_ok _ _ _ M c cs eq_refl) as (k & K & S). rewrite forallb_forall in FB. specialize (FB k K).
    assert (HC : exists q, c = b :: q).
    { destruct (chars_head (b :: rest) b eq_refl) as (q & q' & HD & _). rewrite E in HD. cbn in HD. injection HD as ->. eauto. }
    destruct HC as (q & ->). destruct k as [x|l|[]]; cbn [blank_set] in FB; try discriminate FB; cbn [in_set] in S.
    - apply list_eqb_nat in S. injection S as -> _. rewrite orb_true_iff, Nat.leb_le, Nat.eqb_eq in FB. tauto.
    - destruct (le_lt_dec 128 b) as [L|L]; [right; right; exact L|]. pose proof (TC _ _ S) as (_ & CL). specialize (CL b eq_refl). unfold char_len in CL.
      rewrite (proj2 (Nat.ltb_lt _ _) L) in CL. destruct q; [|discriminate CL]. apply TA in S; [|exact L]. cbn in S. lia.
  Qed.
End Rules.

(** The text of a match of [a..z] where [a] and [z] are ASCII characters. *)
Lemma matches_seq : forall U a b s, matches U (Seq a b) s -> exists x y, s = x ++ y /\ matches U a x /\ matches U b y.
Proof. intros U a b s M. inversion M; subst; eauto. Qed.
Lemma matches_chr : forall U k s, matches U (Chr k) s -> exists c, s = [c] /\ in_set U k c = true.
Proof. intros U k s M. inversion M; subst; eauto. Qed.
Lemma matches_lit : forall U b s, matches U (Chr (Lit b)) s -> s = [[b]].
Proof. intros U b s M. destruct (matches_chr _ _ _ M) as (c & -> & I). cbn in I. apply list_eqb_nat in I. subst. reflexivity. Qed.

(** ** Raw strings and block comments *)
Definition raw_re : regex := Seq (Chr (Lit 114)) (Seq (Star (Chr (Lit 35))) (Chr (Lit 34))).
Definition raw_plus_re : regex := Seq (Chr (Lit 114)) (Seq (Plus (Chr (Lit 35))) (Chr (Lit 34))).
Definition comment_re : regex := Seq (Chr (Lit 47)) (Chr (Lit 42)).

Lemma star_lit : forall U b s, matches U (Star (Chr (Lit b))) s -> exists n, s = repeat [b] n.
Proof.
  intros U b s M. remember (Star (Chr (Lit b))) as r eqn:E. induction M as [| | | | | |a x y A IHA B IHB]; try discriminate E.
  - exists 0. reflexivity.
  - injection E as ->. apply matches_lit in A. subst x. destruct (IHB eq_refl) as (n & ->). exists (S n). reflexivity.
Qed.

Lemma lit_star : forall U b n, matches U (Star (Chr (Lit b))) (repeat [b] n).
Proof.
  intros U b. induction n as [|n IH]; [constructor|]. change (repeat [b] (S n)) with ([[b]] ++ repeat [b] n). constructor; [|exact IH].
  constructor. cbn [in_set list_eqb]. rewrite Nat.eqb_refl. reflexivity.
Qed.

Definition opening_chars (n : nat) : list bytes := [114] :: repeat [35] n ++ [[34]].

Lemma raw_matches : forall U s, matches U raw_re s <-> exists n, s = opening_chars n.
Proof.
  intros U s. split.
  - intros M. apply matches_seq in M. destruct M as (x & y & -> & A & M). apply matches_seq in M. destruct M as (z & w & -> & B & C).
    apply matches_lit in A. apply matches_lit in C. apply star_lit in B. destruct B as (n & ->). subst. exists n. reflexivity.
  - intros (n & ->). apply (m_seq U (Chr (Lit 114)) _ [[114]]); [constructor; reflexivity|]. constructor; [apply lit_star|constructor; reflexivity].
Qed.

Lemma raw_plus_matches : forall U s, matches U raw_plus_re s <-> exists n, s = opening_chars (S n).
Proof.
  intros U s. split.
  - intros M. apply matches_seq in M. destruct M as (x & y & -> & A & M). apply matches_seq in M. destruct M as (z & w & -> & B & C).
    apply matches_seq in B. destruct B as (u & v & -> & B & D).
    apply matches_lit in A. apply matches_lit in B. apply matches_lit in C. apply star_lit in D. destruct D as (n & ->). subst. exists n. reflexivity.
  - intros (n & ->). apply (m_seq U (Chr (Lit 114)) _ [[114]]); [constructor; reflexivity|]. constructor; [|constructor; reflexivity].
    apply (m_seq U (Chr (Lit 35)) _ [[35]]); [constructor; reflexivity|]. apply lit_star.
Qed.

Lemma comment_matches : forall U s, matches U comment_re s <-> s = [[47]; [42]].
Proof.
  intros U s. split.
  - intros M. apply matches_seq in M. destruct M as (x & y & -> & A & B). apply matches_lit in A. apply matches_lit in B. subst. reflexivity.
  - intros ->. apply (m_seq U (Chr (Lit 47)) _ [[47]]); constructor; reflexivity.
Qed.

Lemma opening_concat : forall n, concat (opening_chars n) = opening n.
Proof.
  intros n. unfold opening_chars, opening. cbn [concat app]. f_equal. rewrite concat_app. cbn [concat app]. f_equal.
  induction n as [|n IH]; [reflexivity|]. cbn [repeat concat app]. rewrite IH. reflexivity.
Qed.

Lemma ascii_chars : forall s, Forall (fun b => b < 128) s -> chars s = map (fun b => [b]) s.
Proof.
  intros s F. assert (E : s = concat (map (fun b => [b]) s)) by (clear; induction s; cbn; [|f_equal]; auto).
  rewrite E at 1. apply chars_concat. apply Forall_forall. intros c I. apply in_map_iff in I. destruct I as (b & <- & I).
  rewrite Forall_forall in F. specialize (F b I). cbn. split; [|constructor]. destruct (is_cont b) eqn:C; [|reflexivity]. apply cont_ge in C. lia.
Qed.

Lemma opening_ascii : forall n, Forall (fun b => b < 128) (opening n).
Proof.
  intros n. unfold opening. constructor; [lia|]. apply Forall_app. split; [apply hashes_ascii|repeat constructor; lia].
Qed.

Lemma chars_opening : forall n rest, utf8 (opening n ++ rest) -> chars (opening n ++ rest) = opening_chars n ++ chars rest.
Proof.
  intros n rest U. rewrite chars_app; [|apply ascii_utf8, opening_ascii|exact (opening_utf8 _ _ U)]. f_equal.
  rewrite (ascii_chars _ (opening_ascii n)). unfold opening, opening_chars. cbn [map]. f_equal. rewrite map_app. f_equal. clear. induction n as [|n IH]; [reflexivity|]. cbn [repeat map]. rewrite IH. reflexivity.
Qed.

(** A rule of the repository: one without a function, a raw string or a block comment. *)
Definition known_rule (r : lex_rule) : Prop :=
  r_f r = None \/ (r_f r = Some parse_raw_string /\ (r_re r = raw_re \/ r_re r = raw_plus_re))
  \/ (r_f r = Some parse_block_comment /\ r_re r = comment_re).

Definition raw_rule (r : lex_rule) : Prop := r_f r = Some parse_raw_string.

Lemma found_raw : forall U r s, r = raw_re \/ r = raw_plus_re -> find U r s <> None -> exists n rest, s = opening n ++ rest.
Proof.
  intros U r s R F. destruct (find U r s) as [m|] eqn:E; [|congruence]. destruct (find_some _ _ _ _ E) as (cs & rest & EC & M & _).
  assert (N : exists n, cs = opening_chars n).
  { destruct R as [-> | ->]; [apply raw_matches in M; exact M|]. apply raw_plus_matches in M. destruct M as (n & ->). eauto. }
  destruct N as (n & ->). exists n, (concat rest). rewrite <- (chars_all s), EC, concat_app, opening_concat. reflexivity.
Qed.

Lemma finds_raw : forall U r n rest, r = raw_re \/ (r = raw_plus_re /\ 0 < n) -> utf8 (opening n ++ rest) -> find U r (opening n ++ rest) <> None.
Proof.
  intros U r n rest R US F. rewrite find_none in F. apply (F (opening_chars n) (chars rest)); [apply chars_opening; exact US|].
  destruct R as [-> | [-> L]]; [apply raw_matches; eauto|]. apply raw_plus_matches. destruct n as [|n]; [lia|]. eauto.
Qed.

Lemma opening_inj : forall n m a b, opening n ++ a = opening m ++ b -> n = m /\ a = b.
Proof.
  unfold opening. induction n as [|n IH]; intros [|m] a b E; cbn in E.
  - injection E as ->. auto.
  - discriminate E.
  - discriminate E.
  - injection E as E. destruct (IH m a b) as [-> ->]; [cbn; f_equal; exact E|]. auto.
Qed.

Lemma try_known : forall U r s, known_rule r -> utf8 s ->
  (exists o, try_rule U s r = Ok o) \/ (try_rule U s r = Panic /\ raw_rule r /\ exists n rest, 30 < n /\ s = opening n ++ rest).
Proof.
  intros U r s K US. unfold try_rule. destruct (find U (r_re r) s) as [m|] eqn:F; [|left; eauto].
  destruct K as [-> | [[RF RE] | [RF RE]]]; [left; eauto| |].
  - rewrite RF. destruct (found_raw U _ s RE) as (n & rest & ->); [congruence|]. rewrite (raw_string n rest US). destruct (n <=? 30) eqn:L; [left; eauto|].
    right. split; [reflexivity|]. split; [exact RF|]. apply Nat.leb_gt in L. eauto.
  - rewrite RF. rewrite RE in F. destruct (find_some _ _ _ _ F) as (cs & rest & EC & M & _). apply comment_matches in M. subst cs.
    assert (O : occurs [47; 42] s 0). { exists [], (concat rest). split; [|reflexivity]. rewrite <- (chars_all s), EC. reflexivity. }
    left. destruct O as (a & b & E & LA). destruct a; [|discriminate LA]. cbn [app] in E. subst s.
    assert (UB : utf8 b) by (apply (utf8_ascii [47] 42); [exact US|lia]).
    unfold parse_block_comment. change (suffix (47 :: 42 :: b) 2) with (suffix ([47; 42] ++ b) (length [47; 42])). rewrite (suffix_ok [47; 42] b UB). cbn [bind].
    destruct (comment_ok (S (length (47 :: 42 :: b))) [47; 42] b 1 UB) as (n & d & C & _); [cbn; lia|constructor|].
    change (length [47; 42]) with 2 in C. rewrite C. cbn [bind]. eauto.
Qed.

Lemma candidates_panic : forall U s l, (forall k r, In (k, r) l -> (exists o, try_rule U s r = Ok o) \/ try_rule U s r = Panic) ->
  (exists k r, In (k, r) l /\ try_rule U s r = Panic) -> candidates U s l = Panic.
Proof.
  intros U s. induction l as [|[k r] l IH]; intros H (k' & r' & I & T); [destruct I|]. cbn [candidates].
  destruct (H k r (or_introl eq_refl)) as [(o & O) | O]; rewrite O; [|reflexivity]. cbn [bind].
  destruct I as [I|I]; [injection I as -> ->; congruence|]. rewrite IH; [reflexivity| |eauto]. intros k2 r2 J. apply (H k2). right. exact J.
Qed.

(** The panics of a lexer made of such rules. *)
Lemma lexer_panics : forall U pick err rules s, few rules -> picks pick -> (forall r, In r rules -> known_rule r) -> utf8 s ->
  (next_token U pick err rules s = Panic <-> exists r, In r rules /\ raw_rule r /\ exists n rest, 30 < n /\ s = opening n ++ rest)
  /\ (next_token U pick err rules s <> Panic -> exists t, next_token U pick err rules s = Ok t).
Proof.
  intros U pick err rules s F P K US.
  assert (TR : forall r, In r rules -> raw_rule r -> forall n rest, 30 < n -> s = opening n ++ rest -> try_rule U s r = Panic).
  { intros r I RR n rest L E. destruct (K r I) as [X | [[_ RE] | [X _]]]; unfold raw_rule in RR; [congruence| |].
    - unfold try_rule. destruct (find U (r_re r) s) as [m|] eqn:FI.
      + rewrite RR, E. rewrite (raw_string n rest) by (rewrite <- E; exact US). rewrite (proj2 (Nat.leb_gt _ _) L). reflexivity.
      + exfalso. subst s. refine (finds_raw U (r_re r) n rest _ US FI). destruct RE as [-> | ->]; [left; reflexivity|right; split; [reflexivity|lia]].
    - exfalso. rewrite X in RR. injection RR as RR. assert (Z : parse_block_comment [34] = parse_raw_string [34]) by (rewrite RR; reflexivity). vm_compute in Z. discriminate Z. }
  assert (PA : (exists r, In r rules /\ raw_rule r /\ exists n rest, 30 < n /\ s = opening n ++ rest) -> next_token U pick err rules s = Panic).
  { intros (r & I & RR & n & rest & L & E). unfold next_token. destruct (rule_kind rules r I) as (k & J).
    pose proof (numbered_rules rules [ERROR]) as NR. fold (new_lexer rules) in NR.
    destruct (new_lexer rules) as [tys l]. cbn [snd] in *. unfold m_next. rewrite (candidates_panic U s l); [reflexivity| |].
    - intros k' r' J'. assert (I' : In r' rules) by (rewrite <- NR; apply in_map_iff; exists (k', r'); auto).
      destruct (try_known U r' s (K _ I') US) as [H|[H _]]; auto.
    - exists k, r. split; [exact J|]. eapply TR; eauto. }
  assert (OK : (exists r, In r rules /\ raw_rule r /\ exists n rest, 30 < n /\ s = opening n ++ rest) \/ exists t, next_token U pick err rules s = Ok t).
  { assert (D : (exists r, In r rules /\ try_rule U s r = Panic /\ raw_rule r /\ exists n rest, 30 < n /\ s = opening n ++ rest)
                \/ forall r, In r rules -> exists o, try_rule U s r = Ok o).
    { clear - K US. induction rules as [|r l IH]; [right; intros r []|]. destruct (try_known U r s (K r (or_introl eq_refl)) US) as [H|H].
      - destruct IH as [(r' & I & X)|Y]; [intros r' I; apply K; right; exact I| |].
        + left. exists r'. split; [right; exact I|exact X].
        + right. intros r' [<-|I]; auto.
      - left. exists r. split; [left; reflexivity|exact H]. }
    destruct D as [(r & I & _ & X)|D]; [left; eauto|right]. apply next_token_total; assumption. }
  split; [split; [|exact PA]|].
  - intros E. destruct OK as [X|(t & T)]; [exact X|congruence].
  - intros NP. destruct OK as [X|T]; [|exact T]. destruct (NP (PA X)).
Qed.
