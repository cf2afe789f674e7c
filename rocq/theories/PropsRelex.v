(** C72: incremental lexing and parsing with the lexers of the shipped languages. *)
From Coq Require Import List Arith NArith Bool Lia.
From Verif Require Import Base BaseFacts TextModel TextSpec TextProofs EditModel LexModel LexSpec LexProofs ScanModel ScanSpec ScanProofs TreeModel
  GrammarModel GrammarData ParserModel ConvertModel WellFormed CheckProofs PropsCheck ReparseModel ReparseSpec ReparseProofs PropsReparse AlwaysProofs PropsComplete
  RegexModel RegexSpec RegexProofs RegexLang PropsRegex RelexChars RelexLang LexData FallLang.
Import ListNotations.
Open Scope list_scope.

(** ** Which rules can apply at a character *)
Definition starts_with (b : nat) (r : lex_rule) : bool := existsb (fun k => negb (apart (Lit b) k)) (firsts (r_re r)).

Lemma takes_starts : forall U r s n b rest, tables_ok U -> takes U r s n -> nullable (r_re r) = false -> utf8 s -> s = b :: rest -> b < 128 -> starts_with b r = true.
Proof.
  intros U r s n b rest T (cs & re & E & M & _) N US ES L. destruct (first_char U _ cs N M) as (c & cs' & -> & k & K & I).
  assert (C : c = [b]).
  { subst s. destruct (chars_head (b :: rest) b eq_refl) as (q & q' & HD & _). rewrite E in HD. cbn in HD. injection HD as ->.
    destruct (utf8_chars _ US) as (ds & F & _ & ED). rewrite E in ED. rewrite <- ED in F. cbn [app] in F. apply Forall_inv in F. destruct F as (_ & CL).
    specialize (CL b eq_refl). unfold char_len in CL. rewrite (proj2 (Nat.ltb_lt _ _) L) in CL. destruct q; [reflexivity|discriminate CL]. }
  subst c. unfold starts_with. apply existsb_exists. exists k. split; [exact K|]. apply negb_true_iff. destruct (apart (Lit b) k) eqn:A; [|reflexivity].
  exfalso. apply (apart_ok U (Lit b) k [b] T A); [cbn [in_set]; apply eqb_self|exact I].
Qed.

Lemma star_chr_all : forall U k s, matches U (Star (Chr k)) s -> Forall (fun c => in_set U k c = true) s.
Proof.
  intros U k s M. remember (Star (Chr k)) as r eqn:E. induction M as [| | | | | |a x y A IHA B IHB]; try discriminate E; [constructor|].
  injection E as ->. destruct (matches_chr _ _ _ A) as (c & -> & I). constructor; [exact I|]. exact (IHB eq_refl).
Qed.

(** A word that is followed by something else. *)
Lemma word_one : forall U s b c rest n r, tables_ok U -> r_f r = None -> r_re r = Plus (Chr (Cls Word)) -> takes U r s n -> utf8 s -> s = b :: c :: rest ->
  b < 128 -> c < 128 -> ascii_U Word [c] = false -> n = 1.
Proof.
  intros U s b c rest n r T RF RE (cs & re & E & M & LN) US -> LB LC NW. rewrite RF in LN. rewrite RE in M. subst n.
  assert (F2 : Forall (fun b => b < 128) [b; c]) by (constructor; [exact LB|constructor; [exact LC|constructor]]).
  assert (EC : chars (b :: c :: rest) = [b] :: [c] :: chars rest).
  { change (b :: c :: rest) with ([b; c] ++ rest). rewrite chars_app; [|apply ascii_utf8; exact F2|apply (utf8_ascii [b] c); assumption].
    rewrite (ascii_chars [b; c] F2). reflexivity. }
  rewrite EC in E. apply matches_seq in M. destruct M as (x & y & -> & A & B). destruct (matches_chr _ _ _ A) as (d & -> & _). cbn [app] in E. injection E as <- E.
  destruct y as [|e y]; [reflexivity|]. cbn [app] in E. injection E as <- _. apply star_chr_all, Forall_inv in B. cbn [in_set] in B. rewrite (ascii_agree U Word c T LC) in B. congruence.
Qed.

Lemma char_one : forall U s n r k, r_f r = None -> r_re r = Chr (Lit k) -> takes U r s n -> n = 1.
Proof. intros U s n r k RF RE (cs & re & E & M & LN). rewrite RF in LN. rewrite RE in M. apply matches_lit in M. subst. reflexivity. Qed.

(** ** The conditions on rules *)
Lemma raw_taken : forall U r s n, r_f r = Some parse_raw_string -> takes U r s n -> try_rule U s r = Ok (Some n).
Proof.
  intros U r s n RF (cs & re & E & M & F). rewrite RF in F. unfold try_rule. destruct (find U (r_re r) s) as [m|] eqn:FI; [rewrite RF; exact F|].
  exfalso. rewrite find_none in FI. exact (FI _ _ E M).
Qed.

Section Raw.
  Variables (U : tables) (err : bytes -> nat) (rules : list lex_rule) (raw word : lex_rule).
  Hypothesis TU : tables_ok U.
  Hypothesis ER : err_ok err.
  Hypothesis PR : proper_rules rules.
  Hypothesis ND : NoDup (map r_ty rules).
  Hypothesis IR : In raw rules.
  Hypothesis IW : In word rules.
  Hypothesis RF : r_f raw = Some parse_raw_string.
  Hypothesis WF : r_f word = None.
  Hypothesis WE : r_re word = Plus (Chr (Cls Word)).
  Hypothesis NU : forallb (fun r => negb (nullable (r_re r))) rules = true.
  Hypothesis R : map r_ty (filter (starts_with 114) rules) = [r_ty raw; r_ty word].
  Let lx := regex_lexer U longest err rules.

  Lemma starts_in : forall s b rest, utf8 s -> s = b :: rest -> b < 128 -> tk_ty (lx s) <> ERROR ->
    exists r, In r rules /\ tk_ty (lx s) = r_ty r /\ takes U r s (tk_len (lx s)) /\ In (r_ty r) (map r_ty (filter (starts_with b) rules)).
  Proof.
    intros s b rest US ES L NE. destruct (lexer_cases U longest err rules longest_picks PR s) as [(r & I & TY & TK)|X]; [|fold lx in X; rewrite X in NE; destruct (NE eq_refl)].
    exists r. split; [exact I|]. split; [exact TY|]. split; [exact TK|]. apply in_map. apply filter_In. split; [exact I|].
    rewrite forallb_forall in NU. specialize (NU r I). apply negb_true_iff in NU. eapply takes_starts; eauto.
  Qed.

  Lemma word_token : forall s c rest, utf8 s -> error_free lx s -> s = 114 :: c :: rest -> c = 35 \/ c = 34 -> try_rule U s raw = Ok None ->
    lx s = mkTok (r_ty word) 1 /\ utf8 (c :: rest) /\ exists ts, lex lx s = Ok (mkTok (r_ty word) 1 :: lx (c :: rest) :: ts) /\ tk_ty (lx (c :: rest)) <> ERROR.
  Proof.
    intros s c rest US EF ES C TR. pose proof (regex_progress U longest err rules longest_picks ER PR) as PG. fold lx in PG.
    assert (NS : s <> []) by (rewrite ES; discriminate). pose proof (error_head U err rules s NS PG EF) as NE.
    destruct (starts_in s 114 (c :: rest) US ES ltac:(lia) NE) as (r & I & TY & TK & J). rewrite R in J.
    assert (H : lx s = mkTok (r_ty word) 1).
    { destruct J as [J|[J|[]]].
      - pose proof (same_type rules r raw ND I IR J) as ->. rewrite (raw_taken _ _ _ _ RF TK) in TR. discriminate TR.
      - pose proof (same_type rules r word ND I IW J) as <-.
        assert (L1 : tk_len (lx s) = 1) by (eapply word_one; eauto; try lia; destruct C as [-> | ->]; try reflexivity; lia). destruct (lx s) as [t n]. cbn in *. congruence. }
    split; [exact H|]. assert (UC : utf8 (c :: rest)) by (rewrite ES in US; apply (utf8_ascii [] 114); [exact US|lia]). split; [exact UC|].
    destruct (lex_ok lx s PG) as (ts & LX & T). specialize (EF _ LX). clear TR TK NE US NS.
    inversion T as [|? t ts1 A1 A2 A3]; subst; [discriminate|]. rewrite H in A3, LX, EF. cbn [tk_len skipn] in A3.
    inversion A3 as [|? t2 ts2 B1 B2 B3]; subst. exists ts2. split; [exact LX|]. exact (Forall_inv (Forall_inv_tail EF)).
  Qed.
End Raw.

Lemma local_known : forall rules, forallb (fun r => match r_f r with None => true | Some _ => false end) rules = true ->
  forall r, In r rules -> r_f r = None \/ (r_f r = Some parse_raw_string /\ (r_re r = raw_re \/ r_re r = raw_plus_re)).
Proof. intros rules F r I. rewrite forallb_forall in F. specialize (F r I). destruct (r_f r); [discriminate F|left; reflexivity]. Qed.

Lemma plain_local : forall U err rules, tables_ok U -> err_ok err -> proper_rules rules -> forallb (fun r => match r_f r with None => true | Some _ => false end) rules = true ->
  local_rules rules = true -> local_on (regex_lexer U longest err rules) (fun _ => True).
Proof.
  intros U err rules T E PR F L. apply local_on_rules; auto; [exact (proj1 PR)|exact (local_known rules F)| |exact (regex_progress U longest err rules longest_picks E PR)].
  intros r s c rest I RF. rewrite forallb_forall in F. specialize (F r I). rewrite RF in F. discriminate F.
Qed.

(** The rules of the languages for which relexing is right. *)
Inductive relexed : list lex_rule -> Prop :=
| rx_sexp : relexed sexp_rules
| rx_bnf : relexed bnf_rules
| rx_json : relexed json_rules
| rx_arith : relexed arith_rules
| rx_weird : relexed weird_rules.

Lemma relexed_proper : forall rules, relexed rules -> proper_rules rules.
Proof.
  intros rules [ | | | | ]; [exact (lexed_proper _ _ _ _ lx_sexp)|exact (lexed_proper _ _ _ _ lx_bnf)|exact (lexed_proper _ _ _ _ lx_json)|exact (lexed_proper _ _ _ _ lx_arith)|exact (lexed_proper _ _ _ _ lx_weird)].
Qed.

Lemma weird_local : forall U err, tables_ok U -> err_ok err -> local_on (regex_lexer U longest err weird_rules) (fun _ => True).
Proof.
  intros U err T E. pose proof (lexed_proper _ _ _ _ lx_weird) as PR. pose proof (regex_progress U longest err weird_rules longest_picks E PR) as PG.
  set (raw := mkRule 101 raw_plus_re (Some parse_raw_string)). set (word := mkRule 110 (Plus (Chr (Cls Word))) None).
  assert (LR : local_rules weird_rules = true) by (vm_compute; reflexivity).
  assert (ND : NoDup (map r_ty weird_rules)) by (apply nodupb_ok; vm_compute; reflexivity).
  assert (IR : In raw weird_rules) by (apply nth_error_In with (n := 1); reflexivity). assert (IW : In word weird_rules) by (apply nth_error_In with (n := 10); reflexivity).
  assert (RAWS : forall r, In r weird_rules -> r_f r <> None -> r = raw).
  { intros r I. unfold weird_rules in I. repeat (destruct I as [<-|I]; [try (intros X; destruct (X eq_refl)); try reflexivity|]). destruct I. }
  apply local_on_rules; auto; [exact (proj1 PR)| |].
  - intros r I. destruct (r_f r) as [f|] eqn:F; [|left; reflexivity]. rewrite <- F. pose proof (RAWS r I) as X. rewrite X by congruence. right. split; [reflexivity|right; reflexivity].
  - intros r s c rest I RF US EF _ ES C TR. rewrite (RAWS r I) in TR by congruence.
    destruct (word_token U err weird_rules raw word T E PR ND IR IW eq_refl eq_refl eq_refl eq_refl eq_refl s c rest US EF ES C TR) as (_ & UC & ts & _ & NE).
    destruct (starts_in U err weird_rules T PR eq_refl (c :: rest) c rest UC eq_refl ltac:(destruct C as [-> | ->]; lia) NE) as (r' & _ & _ & _ & J).
    destruct C as [-> | ->]; vm_compute in J; destruct J.
Qed.

Lemma relexed_local : forall rules U err, relexed rules -> tables_ok U -> err_ok err -> local_on (regex_lexer U longest err rules) (fun _ => True).
Proof. intros rules U err RX T E. destruct RX; [| | | |exact (weird_local U err T E)]; (apply plain_local; [exact T|exact E| |vm_compute; reflexivity|vm_compute; reflexivity]); apply relexed_proper; constructor. Qed.

(** * C72 *)

(** For these languages and every UTF-8 text and edit: relexing gives the tokens of the new text. *)
Theorem C72_relex : forall rules U err old toks ops new, relexed rules -> tables_ok U -> err_ok err ->
  let lx := regex_lexer U longest err rules in
  utf8 old -> inserts_utf8 ops -> lex lx old = Ok toks -> apply ops (as_text old) = Ok new ->
  utf8 new /\ exists region ts, relex lx toks ops new = Ok (ts, region) /\ lex lx new = Ok ts.
Proof.
  intros rules U err old toks ops new RX T E lx UO IU LX AP. pose proof (relexed_proper _ RX) as PR.
  exact (relex_chars lx (fun _ => True) old toks ops new (regex_progress U longest err rules longest_picks E PR) (regex_whole U longest err rules longest_picks E PR)
    (relexed_local rules U err RX T E) (fun s _ _ => I) I UO IU LX AP).
Qed.
Print Assumptions C72_relex.

(** ** The fall language *)

(** In the token list of the text, no identifier which is just the letter r is directly followed by a hash. *)
Definition no_bare_raw (lx : lexer) (s : bytes) : Prop :=
  forall before after, lex lx s = Ok (before ++ mkTok 130 1 :: mkTok 118 1 :: after) -> nth_error s (lens before) <> Some 114.

Lemma no_bare_tails : forall lx, progressing lx -> token_tails lx (no_bare_raw lx).
Proof.
  intros lx PG s NE H before after LX N. destruct (lex_ok lx s PG) as (ts & LX' & T). inversion T as [|? t ts1 A1 A2 A3]; subst; [congruence|].
  destruct (lex_ok lx (skipn (tk_len (lx s)) s) PG) as (ts2 & LX2 & T2). rewrite LX in LX2. injection LX2 as <-.
  rewrite (tokenizes_fun _ _ _ A3 _ T2) in LX'. apply (H (lx s :: before) after LX'). rewrite nth_error_skipn in N. exact N.
Qed.

Lemma fall_local : forall U err, tables_ok U -> err_ok err -> let lx := regex_lexer U longest err fall_rules in local_on lx (no_bare_raw lx).
Proof.
  intros U err T E lx. pose proof (lexed_proper _ _ _ _ lx_fall) as PR. pose proof (regex_progress U longest err fall_rules longest_picks E PR) as PG.
  set (raw := mkRule 129 raw_re (Some parse_raw_string)). set (word := mkRule 130 (Plus (Chr (Cls Word))) None). set (hash := mkRule 118 (Chr (Lit 35)) None).
  assert (LR : local_rules fall_rules = true) by (vm_compute; reflexivity).
  assert (ND : NoDup (map r_ty fall_rules)) by (apply nodupb_ok; vm_compute; reflexivity).
  assert (IR : In raw fall_rules) by (apply nth_error_In with (n := 20); reflexivity). assert (IW : In word fall_rules) by (apply nth_error_In with (n := 21); reflexivity).
  assert (IH : In hash fall_rules) by (apply nth_error_In with (n := 9); reflexivity).
  assert (RAWS : forall r, In r fall_rules -> r_f r <> None -> r = raw).
  { intros r I. unfold fall_rules in I. repeat (destruct I as [<-|I]; [try (intros X; destruct (X eq_refl)); try reflexivity|]). destruct I. }
  apply local_on_rules; auto; [exact (proj1 PR)| |].
  - intros r I. destruct (r_f r) as [f|] eqn:F; [|left; reflexivity]. rewrite <- F. pose proof (RAWS r I) as X. rewrite X by congruence. right. split; [reflexivity|left; reflexivity].
  - intros r s c rest I RF US EF FI ES C TR. rewrite (RAWS r I) in TR by congruence.
    destruct (word_token U err fall_rules raw word T E PR ND IR IW eq_refl eq_refl eq_refl eq_refl eq_refl s c rest US EF ES C TR) as (_ & UC & ts & LX & NE).
    destruct (starts_in U err fall_rules T PR eq_refl (c :: rest) c rest UC eq_refl ltac:(destruct C as [-> | ->]; lia) NE) as (r' & I' & TY & TK & J).
    destruct C as [-> | ->]; vm_compute in J; [|destruct J]. destruct J as [J|[]].
    pose proof (same_type fall_rules r' hash ND I' IH J) as HH. rewrite <- HH in *. pose proof (char_one U _ _ hash 35 eq_refl eq_refl TK) as L1.
    assert (TT : regex_lexer U longest err fall_rules (35 :: rest) = mkTok 118 1) by (destruct (regex_lexer U longest err fall_rules (35 :: rest)) as [t n]; cbn [tk_ty tk_len r_ty hash] in *; congruence).
    rewrite TT in LX. apply (FI [] ts LX). rewrite ES. reflexivity.
Qed.

(** For fall: relexing is right if the old text has no such identifier, also if it has errors. *)
Theorem C72_fall_relex : forall U err old toks ops new, tables_ok U -> err_ok err ->
  let lx := regex_lexer U longest err fall_rules in
  no_bare_raw lx old -> utf8 old -> inserts_utf8 ops -> lex lx old = Ok toks -> apply ops (as_text old) = Ok new ->
  utf8 new /\ exists region ts, relex lx toks ops new = Ok (ts, region) /\ lex lx new = Ok ts.
Proof.
  intros U err old toks ops new T E lx FI UO IU LX AP. pose proof (lexed_proper _ _ _ _ lx_fall) as PR. pose proof (regex_progress U longest err fall_rules longest_picks E PR) as PG.
  exact (relex_chars lx (no_bare_raw lx) old toks ops new PG (regex_whole U longest err fall_rules longest_picks E PR) (fall_local U err T E) (no_bare_tails lx PG) FI UO IU LX AP).
Qed.
Print Assumptions C72_fall_relex.

(** With one, it is not: after r## the quote and hashes that make it a raw string are read without it. In Rust the same
    holds for characters after a lone quote, and for strings after a backslash. *)
Definition misread (rules : list lex_rule) (old : bytes) (ops : list edit_op) : Prop :=
  exists toks new ts region full, let lx := regex_lexer ascii_U longest one_char rules in
  utf8 old /\ inserts_utf8 ops /\ error_free lx old /\ lex lx old = Ok toks /\ apply ops (as_text old) = Ok new /\
  relex lx toks ops new = Ok (ts, region) /\ lex lx new = Ok full /\ ts <> full.

Ltac misread := do 5 eexists; cbv zeta;
  split; [apply ascii_utf8; repeat (apply Forall_cons; [lia|]); apply Forall_nil|];
  split; [repeat (apply Forall_cons; [first [exact I | apply ascii_utf8; repeat (apply Forall_cons; [lia|]); apply Forall_nil]|]); apply Forall_nil|];
  split; [intros l J; vm_compute in J; injection J as <-; repeat (apply Forall_cons; [discriminate|]); apply Forall_nil|];
  split; [vm_compute; reflexivity|]; split; [vm_compute; reflexivity|]; split; [vm_compute; reflexivity|]; split; [vm_compute; reflexivity|]; discriminate.

Theorem C72_fall_refuted : misread fall_rules [114; 35; 35] [Copy (mkRange 0 3); Insert [34; 34; 35; 35]].
Proof. misread. Qed.
Print Assumptions C72_fall_refuted.

Theorem C72_rust_refuted : misread rust_rules [114; 35; 35] [Copy (mkRange 0 3); Insert [34; 34; 35; 35]] /\
  misread rust_rules [39; 40; 120; 41] [Copy (mkRange 0 2); Insert [39]; Copy (mkRange 3 4)] /\
  misread rust_rules [34; 92; 34; 32; 43; 32; 49] [Copy (mkRange 0 7); Insert [34]].
Proof. split; [misread|]. split; misread. Qed.
Print Assumptions C72_rust_refuted.

(** So the condition of C18 and C29 that one byte of lookahead is enough fails for both lexers. *)
Theorem C72_lookahead_refuted : forall rules, rules = fall_rules \/ rules = rust_rules -> ~ one_byte_lookahead (regex_lexer ascii_U longest one_char rules).
Proof.
  intros rules R ONE. assert (M : exists old ops, misread rules old ops) by (destruct R as [-> | ->]; do 2 eexists; [exact C72_fall_refuted|exact (proj1 C72_rust_refuted)]).
  destruct M as (old & ops & toks & new & ts & region & full & _ & _ & _ & LX & AP & RL & LN & NE).
  assert (PG : progressing (regex_lexer ascii_U longest one_char rules)).
  { apply regex_progress; [exact longest_picks|exact one_char_ok|destruct R as [-> | ->]; [exact (lexed_proper _ _ _ _ lx_fall)|exact (lexed_proper _ _ _ _ lx_rust)]]. }
  destruct (one_byte_safe _ PG ONE old toks ops new I LX AP) as (region' & ts' & RL' & LN'). congruence.
Qed.
Print Assumptions C72_lookahead_refuted.

(** ** Reparsing *)

(** The language with the shipped grammar and lexical rules, for any whitespace binder. *)
Definition shipped_lang (U : tables) (err : bytes -> nat) (rules : list lex_rule) (g : grammar) (ws : nat -> bool) (binder : nat -> list (nat * bytes) -> bool -> nat) : language :=
  mkLang (regex_lexer U longest err rules) g ws binder.

Definition safe_edit (fine : bytes -> Prop) (old : bytes) (ops : list edit_op) : Prop := fine old /\ utf8 old /\ inserts_utf8 ops.

Lemma relexed_safe : forall rules U err, relexed rules -> tables_ok U -> err_ok err -> let lx := regex_lexer U longest err rules in
  forall old toks ops new, safe_edit (fun _ => True) old ops -> lex lx old = Ok toks -> apply ops (as_text old) = Ok new ->
  exists region ts, relex lx toks ops new = Ok (ts, region) /\ lex lx new = Ok ts.
Proof. intros rules U err RX T E lx old toks ops new (_ & UO & IU) LX AP. exact (proj2 (C72_relex rules U err old toks ops new RX T E UO IU LX AP)). Qed.

Lemma all_utf8 : forall rules U err, relexed rules -> tables_ok U -> err_ok err -> forall history old, utf8 old -> Forall inserts_utf8 history -> all_safe (safe_edit (fun _ => True)) old history.
Proof.
  intros rules U err RX T E. induction history as [|ops rest IH]; intros old UO F; cbn [all_safe]; [exact I|]. inversion F as [|? ? IU F']; subst.
  split; [split; [exact I|split; assumption]|]. intros new AP. apply IH; [|exact F'].
  destruct (lex_ok _ old (regex_progress U longest err rules longest_picks E (relexed_proper _ RX))) as (toks & LX & _).
  exact (proj1 (C72_relex rules U err old toks ops new RX T E UO IU LX AP)).
Qed.

(** For the two languages whose grammars give every text a tree, sexp and bnf: the edited file is the file of the edited text. *)
Theorem C72_reparse : forall g ws names rules U err binder fuel0 fuel old f inc ops new, lexed g ws names rules -> g = sexp_grammar \/ g = bnf_grammar ->
  tables_ok U -> err_ok err -> utf8 old -> inserts_utf8 ops ->
  let L := shipped_lang U err rules g ws binder in
  parse_file L fuel0 old = Ok (f, inc) -> apply ops (as_text old) = Ok new -> reparse_file L fuel f inc ops = parse_file L fuel new.
Proof.
  intros g ws names rules U err binder fuel0 fuel old f inc ops new LX G T E UO IU L H AP.
  destruct (C71_shipped _ _ _ _ U longest err LX T longest_picks E) as (PG & BL & _).
  assert (RX : relexed rules) by (destruct LX; first [exact rx_sexp | exact rx_bnf | exact rx_json | exact rx_arith | exact rx_weird | idtac]; destruct G as [G|G]; exfalso; apply (f_equal (fun g => length (g_rules g))) in G; vm_compute in G; discriminate G).
  apply (reparse_uncached L PG _ (relexed_safe rules U err RX T E) fuel0 fuel old f inc ops new); auto.
  - split; [exact I|split; assumption].
  - apply uncachedb_ok. cbn [l_g L shipped_lang]. destruct G as [-> | ->]; vm_compute; reflexivity.
  - assert (SH : shipped (l_g L)) by (cbn [l_g L shipped_lang]; destruct G as [-> | ->]; constructor). destruct (C28_shipped _ SH) as ((c & WF) & PL).
    eapply well_formed_meaningful; eauto. intros b r W. apply blank_is. exact (BL b r W).
Qed.
Print Assumptions C72_reparse.

(** For all five, and any number of edits: what the edits return is what parsing the final text returns. *)
Theorem C72_history : forall g ws names rules U err binder fuel old history f inc x, lexed g ws names rules -> relexed rules ->
  tables_ok U -> err_ok err -> utf8 old -> Forall inserts_utf8 history ->
  let L := shipped_lang U err rules g ws binder in
  parse_file L fuel old = Ok (f, inc) -> edit_all L fuel (f, inc) history = Ok x ->
  exists new, apply_all history old = Ok new /\ parse_file L fuel new = Ok x.
Proof.
  intros g ws names rules U err binder fuel old history f inc x LX RX T E UO IU L H ED.
  assert (UC : uncached (l_g L)).
  { apply uncachedb_ok. cbn [l_g L shipped_lang]. assert (N : length rules <> length fall_rules /\ length rules <> length rust_rules) by (clear -RX; destruct RX; split; discriminate).
    clear -LX N. destruct LX; try (vm_compute; reflexivity); destruct N as [N M]; exfalso; [apply N|apply M]; reflexivity. }
  exact (edits_uncached L _ (relexed_safe rules U err RX T E) fuel UC history old f inc x (all_utf8 rules U err RX T E history old UO IU) H ED).
Qed.
Print Assumptions C72_history.

(** ** Cases *)

(** The tables of the first 128 characters and errors of one character meet the conditions. Editing the S-expression
    (a) into (ab), then into (ab c). *)
Definition real_sexp : language := shipped_lang ascii_U one_char sexp_rules sexp_grammar sexp_ws (fun _ _ _ => 0).

Example C72_relex_case : let old := [40; 97; 41] in let ops := [Copy (mkRange 0 2); Insert [98]; Copy (mkRange 2 3)] in
  tables_ok ascii_U /\ err_ok one_char /\ utf8 old /\ inserts_utf8 ops /\ apply ops (as_text old) = Ok [40; 97; 98; 41] /\
  exists toks region ts, lex (l_lexer real_sexp) old = Ok toks /\ relex (l_lexer real_sexp) toks ops [40; 97; 98; 41] = Ok (ts, region) /\ length ts = 3.
Proof.
  split; [exact ascii_U_ok|]. split; [exact one_char_ok|]. split; [apply ascii_utf8; repeat (apply Forall_cons; [lia|]); apply Forall_nil|].
  split; [repeat (apply Forall_cons; [first [exact I | apply ascii_utf8; repeat (apply Forall_cons; [lia|]); apply Forall_nil]|]); apply Forall_nil|].
  split; [reflexivity|]. do 3 eexists. split; [vm_compute; reflexivity|]. split; vm_compute; reflexivity.
Qed.

Example C72_history_case : exists f inc x, parse_file real_sexp 100 [40; 97; 41] = Ok (f, inc) /\
  edit_all real_sexp 100 (f, inc) [[Copy (mkRange 0 2); Insert [98]; Copy (mkRange 2 3)]; [Copy (mkRange 0 3); Insert [32; 99]; Copy (mkRange 3 4)]] = Ok x /\
  f_text (fst x) = [40; 97; 98; 32; 99; 41].
Proof. do 3 eexists. split; [vm_compute; reflexivity|]. split; vm_compute; reflexivity. Qed.

(** A fall text with a raw string and an attribute has no identifier r before a hash. *)
Example C72_fall_case : let txt := [35; 91; 97; 93; 32; 114; 35; 34; 120; 34; 35] in
  no_bare_raw (regex_lexer ascii_U longest one_char fall_rules) txt /\ utf8 txt /\
  lex (regex_lexer ascii_U longest one_char fall_rules) txt = Ok [mkTok 118 1; mkTok 121 1; mkTok 130 1; mkTok 122 1; mkTok 100 1; mkTok 129 6].
Proof.
  cbv zeta. assert (LX : lex (regex_lexer ascii_U longest one_char fall_rules) [35; 91; 97; 93; 32; 114; 35; 34; 120; 34; 35]
    = Ok [mkTok 118 1; mkTok 121 1; mkTok 130 1; mkTok 122 1; mkTok 100 1; mkTok 129 6]) by (vm_compute; reflexivity).
  split; [|split; [apply ascii_utf8; repeat (apply Forall_cons; [lia|]); apply Forall_nil|exact LX]].
  intros before after H. rewrite LX in H. injection H as H. exfalso.
  do 6 (destruct before as [|? before]; [discriminate H|injection H as ? H]). destruct before; discriminate H.
Qed.
