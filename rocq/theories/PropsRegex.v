(** C71: the lexers of the shipped languages, made of regular expressions. *)
From Coq Require Import List Arith NArith Bool Lia String.
From Verif Require Import Base BaseFacts TextModel TextSpec TextProofs EditModel LexModel LexSpec LexProofs ScanModel ScanSpec ScanProofs
  GrammarModel GrammarData ConvertModel PropsCheck AnalysisModel NestProofs PropsComplete PropsNest RustEditModel AlwaysSpec PropsAlways
  NameData NameModel PropsDump RegexModel RegexSpec RegexProofs RegexLang LexData FallLang.
Import ListNotations.
Open Scope list_scope.

(** * C71 *)

(** ** Tokens in general *)

(** Whatever the rules (fewer than 65536): a token belongs to a rule that applies at the start of the text, has the type
    of that rule and the length the rule asks for; or it is an error token, and then no rule applies. *)
Theorem C71_token : forall U pick err rules s t, (N.of_nat (List.length rules) < 65536)%N -> picks pick ->
  next_token U pick err rules s = Ok t ->
  (exists r, In r rules /\ tk_ty t = r_ty r /\ takes U r s (tk_len t))
  \/ (t = mkTok ERROR (err s) /\ forall r, In r rules -> forall cs rest, chars s = cs ++ rest -> matches U (r_re r) cs ->
        exists f, r_f r = Some f /\ f s = Ok None).
Proof.
  intros U pick err rules s t F P H. destruct (next_token_cases _ _ _ _ _ _ F P H) as [X|[E X]]; [left; exact X|right]. split; [exact E|].
  intros r I cs rest EC M. specialize (X r I). unfold try_rule in X. destruct (find U (r_re r) s) as [n|] eqn:FI.
  - destruct (r_f r) as [f|]; [exists f; split; [reflexivity|exact X]|discriminate X].
  - exfalso. rewrite find_none in FI. exact (FI _ _ EC M).
Qed.
Print Assumptions C71_token.

(** When the longest candidate is taken: the rules before the one that is taken ask for less, those after it for no more. *)
Lemma longest_split : forall c b, exists pre post, b :: c = pre ++ fold_left longer c b :: post /\
  (forall x, In x pre -> snd x < snd (fold_left longer c b)) /\ (forall x, In x post -> snd x <= snd (fold_left longer c b)).
Proof.
  induction c as [|x c IH]; intros b; cbn [fold_left].
  - exists [], []. split; [reflexivity|]. split; intros y [].
  - destruct (IH (longer b x)) as (pre & post & E & A & B). unfold longer at 1 in E. destruct (Nat.ltb_spec (snd b) (snd x)) as [L|L].
    + assert (EL : longer b x = x) by (unfold longer; rewrite (proj2 (Nat.ltb_lt _ _) L); reflexivity). rewrite EL in *.
      exists (b :: pre), post. split; [cbn [app]; rewrite <- E; reflexivity|]. split; [|exact B]. intros y [<-|I]; [|exact (A y I)].
      pose proof (proj2 (longest_fold c x) x (or_introl eq_refl)). lia.
    + assert (EL : longer b x = b) by (unfold longer; rewrite (proj2 (Nat.ltb_ge _ _) L); reflexivity). rewrite EL in *.
      pose proof (proj2 (longest_fold c b) b (or_introl eq_refl)) as MB. destruct pre as [|p pre].
      * cbn [app] in E. injection E as E1 E2. exists [], (x :: post). split; [cbn [app]; f_equal; [exact E1|f_equal; exact E2]|]. split; [intros y []|].
        intros y [<-|I]; [lia|exact (B y I)].
      * cbn [app] in E. injection E as E1 E2. subst p. exists (b :: x :: pre), post. split; [cbn [app]; do 2 f_equal; exact E2|]. split; [|exact B].
        pose proof (A b (or_introl eq_refl)) as AB. intros y [<-|[<-|I]]; [exact AB|lia|apply A; right; exact I].
Qed.

Lemma candidates_split : forall U s l c, candidates U s l = Ok c -> forall pre k n post, c = pre ++ (k, n) :: post ->
  exists lp r lq, l = lp ++ (k, r) :: lq /\ try_rule U s r = Ok (Some n) /\
    (forall k' r' m, In (k', r') lp -> try_rule U s r' = Ok (Some m) -> In (k', m) pre) /\
    (forall k' r' m, In (k', r') lq -> try_rule U s r' = Ok (Some m) -> In (k', m) post).
Proof.
  intros U s. induction l as [|[k0 r0] l IH]; intros c H pre k n post E; cbn [candidates] in H.
  - injection H as <-. destruct pre; discriminate E.
  - apply bind_ok in H. destruct H as (o & O & H). apply bind_ok in H. destruct H as (c' & C & H). injection H as H.
    assert (REST : forall pre', c' = pre' ++ (k, n) :: post -> (forall m, o = Some m -> In (k0, m) pre) -> (forall x, In x pre' -> In x pre) ->
      exists lp r lq, (k0, r0) :: l = lp ++ (k, r) :: lq /\ try_rule U s r = Ok (Some n) /\
        (forall k' r' m, In (k', r') lp -> try_rule U s r' = Ok (Some m) -> In (k', m) pre) /\
        (forall k' r' m, In (k', r') lq -> try_rule U s r' = Ok (Some m) -> In (k', m) post)).
    { intros pre' E' HO SUB. destruct (IH _ C _ _ _ _ E') as (lp & r & lq & EL & T & A & B). exists ((k0, r0) :: lp), r, lq. split; [rewrite EL; reflexivity|].
      split; [exact T|]. split; [|exact B]. intros k' r' m [I|I] T'; [|apply SUB; eapply A; eauto]. injection I as <- <-. apply HO. congruence. }
    destruct o as [m|].
    + rewrite E in H. destruct pre as [|p pre]; cbn [app] in H.
      * injection H as -> -> E'. exists [], r0, l. split; [reflexivity|]. split; [exact O|]. split; [intros k' r' m' []|].
        intros k' r' m' I T. destruct (candidates_all _ _ _ _ C _ _ I) as (o & O' & X). rewrite <- E'. apply X. congruence.
      * injection H as <- E'. apply (REST pre E'); [|intros x I; right; exact I]. intros m' EM. injection EM as <-. left. reflexivity.
    + rewrite E in H. apply (REST pre H); [discriminate|auto].
Qed.

Theorem C71_longest : forall U err rules s t, (N.of_nat (List.length rules) < 65536)%N -> next_token U longest err rules s = Ok t ->
  (exists before r after, rules = before ++ r :: after /\ tk_ty t = r_ty r /\ try_rule U s r = Ok (Some (tk_len t)) /\
    (forall r' n, In r' before -> try_rule U s r' = Ok (Some n) -> n < tk_len t) /\
    (forall r' n, In r' after -> try_rule U s r' = Ok (Some n) -> n <= tk_len t))
  \/ (t = mkTok ERROR (err s) /\ forall r, In r rules -> try_rule U s r = Ok None).
Proof.
  intros U err rules s t F H. destruct (next_token_cases _ _ _ _ _ _ F longest_picks H) as [_|X]; [|right; exact X].
  unfold next_token in H. destruct (new_lexer_ok rules F) as [T K]. pose proof (rule_kind rules) as RK. pose proof (numbered_rules rules [ERROR]) as NR. fold (new_lexer rules) in NR.
  destruct (new_lexer rules) as [tys l]. cbn [fst snd] in *. subst tys.
  apply bind_ok in H. destruct H as ([k n] & M & H). unfold m_next in M. apply bind_ok in M. destruct M as (c & C & M). injection M as M.
  destruct c as [|x c].
  - right. injection M as <- <-. cbn [N.to_nat nth_error unwrap bind] in H. injection H as <-. split; [reflexivity|].
    intros r I. destruct (RK r I) as (k & J). destruct (candidates_all _ _ _ _ C _ _ J) as (o & O & A). rewrite O. destruct o as [m|]; [destruct (A m eq_refl)|reflexivity].
  - left. cbn [longest] in M. destruct (longest_split c x) as (pre & post & E & A & B). rewrite M in *. cbn [snd] in *.
    destruct (candidates_split _ _ _ _ C _ _ _ _ E) as (lp & r & lq & EL & O & PA & PB).
    assert (J : In (k, r) l) by (rewrite EL; apply in_or_app; right; left; reflexivity). destruct (K _ _ J) as [R NT]. rewrite NT in H. cbn [unwrap bind] in H. injection H as <-.
    exists (map snd lp), r, (map snd lq). split; [rewrite <- NR, EL, map_app; reflexivity|]. split; [reflexivity|]. split; [exact O|]. cbn [tk_len]. split.
    + intros r' m I T. apply in_map_iff in I. destruct I as ([k' r2] & E2 & I). cbn in E2. subst r2. apply (A (k', m)). eapply PA; eauto.
    + intros r' m I T. apply in_map_iff in I. destruct I as ([k' r2] & E2 & I). cbn in E2. subst r2. apply (B (k', m)). eapply PB; eauto.
Qed.
Print Assumptions C71_longest.

(** The number of a rule is kept in 16 bits: with 65536 rules the last one has the number of errors. *)
Theorem C71_many_rules_refuted : exists U err rules s t, next_token U longest err rules s = Ok t /\ tk_ty t = ERROR /\
  (exists r, In r rules /\ takes U r s (tk_len t)) /\ Forall (fun r => r_ty r <> ERROR) rules.
Proof.
  set (U := (fun _ _ => false) : tables). set (n := N.to_nat 65535). set (a := mkRule 1 (Chr (Lit 97)) None). set (b := mkRule 2 (Chr (Lit 98)) None).
  exists U, (fun _ => 1), (repeat a n ++ [b]), [98], (mkTok ERROR 1).
  assert (NB : forall m tys, let '(ts, l) := numbered tys (repeat a m ++ [b]) in
    ts = tys ++ repeat 1 m ++ [2] /\ exists l', l = l' ++ [((N.of_nat (List.length tys + m) mod 65536)%N, b)] /\ Forall (fun x => snd x = a) l').
  { induction m as [|m IH]; intros tys; cbn [repeat app numbered].
    - split; [reflexivity|]. exists []. rewrite Nat.add_0_r. split; [reflexivity|constructor].
    - specialize (IH (tys ++ [r_ty a])). destruct (numbered (tys ++ [r_ty a]) (repeat a m ++ [b])) as [ts l]. destruct IH as (-> & l' & -> & FA).
      split; [rewrite <- app_assoc; reflexivity|]. exists ((N.of_nat (List.length tys) mod 65536, a)%N :: l'). split; [|constructor; [reflexivity|exact FA]].
      cbn [app]. f_equal. f_equal. rewrite app_length. cbn [List.length]. replace (List.length tys + 1 + m) with (List.length tys + S m) by lia. reflexivity. }
  assert (CA : forall l k, Forall (fun x => snd x = a) l -> candidates U [98] (l ++ [(k, b)]) = Ok [(k, 1)]).
  { induction l as [|[k0 r0] l IH]; intros k FA; [reflexivity|]. inversion FA as [|? ? E FA']; subst. cbn [snd] in E. subst r0. cbn [app candidates].
    change (try_rule U [98] a) with (@Ok (option nat) None). cbn [bind]. rewrite (IH k FA'). reflexivity. }
  split.
  - unfold next_token, new_lexer. specialize (NB n [ERROR]). destruct (numbered [ERROR] (repeat a n ++ [b])) as [ts l]. destruct NB as (-> & l' & -> & FA).
    cbn [List.length]. replace (N.of_nat (1 + n) mod 65536)%N with 0%N.
    2:{ unfold n. rewrite Nnat.Nat2N.inj_add, Nnat.N2Nat.id. reflexivity. }
    unfold m_next. rewrite (CA _ _ FA). cbn [bind longest fold_left app]. reflexivity.
  - split; [reflexivity|]. split.
    + exists b. split; [apply in_or_app; right; left; reflexivity|]. exists [[98]], []. split; [reflexivity|]. split; [|reflexivity]. constructor. reflexivity.
    + apply Forall_app. split; [|repeat constructor; discriminate]. apply Forall_forall. intros r I. apply repeat_spec in I. subst r. discriminate.
Qed.
Print Assumptions C71_many_rules_refuted.

(** ** The shipped lexers *)

(** The grammars with their whitespace, the names of their node types and their lexical rules. *)
Inductive lexed : grammar -> (nat -> bool) -> list (nat * (string * bool)) -> list lex_rule -> Prop :=
| lx_fall : lexed fall_grammar fall_ws fall_names fall_rules
| lx_rust : lexed rust_grammar rust_ws rust_names rust_rules
| lx_sexp : lexed sexp_grammar sexp_ws sexp_names sexp_rules
| lx_bnf : lexed bnf_grammar bnf_ws bnf_names bnf_rules
| lx_json : lexed json_grammar json_ws json_names json_rules
| lx_arith : lexed arith_grammar arith_ws arith_names arith_rules
| lx_weird : lexed weird_grammar weird_ws weird_names weird_rules.

Lemma lexed_known : forall g ws names rules, lexed g ws names rules -> Forall known_rule rules.
Proof.
  intros g ws names rules L. destruct L; unfold known_rule; (repeat apply Forall_cons); try apply Forall_nil; cbn [r_f r_re];
    first [left; reflexivity | right; left; split; [reflexivity|first [left; reflexivity | right; reflexivity]] | right; right; split; reflexivity].
Qed.

Lemma lexed_proper : forall g ws names rules, lexed g ws names rules -> proper_rules rules.
Proof.
  intros g ws names rules L. split; [destruct L; vm_compute; reflexivity|]. intros r I.
  pose proof (lexed_known _ _ _ _ L) as K. rewrite Forall_forall in K. specialize (K r I).
  assert (C : forallb (fun r => match r_f r with None => negb (nullable (r_re r)) | Some _ => true end) rules = true) by (destruct L; vm_compute; reflexivity).
  rewrite forallb_forall in C. specialize (C r I). destruct (r_f r) as [f|] eqn:F; [|apply negb_true_iff; exact C].
  destruct K as [K | [[K _] | [K _]]]; rewrite F in K; [discriminate K| |]; injection K as ->; [exact raw_string_sound|exact block_comment_sound].
Qed.

Lemma lexed_blank : forall g ws names rules, lexed g ws names rules -> forallb (blank_rule ws) rules = true /\ ws ERROR = false.
Proof. intros g ws names rules []; vm_compute; split; reflexivity. Qed.

(** On every text every shipped lexer makes progress, its whitespace starts with a blank, a slash or a byte outside ASCII,
    and in UTF-8 its tokens consist of whole characters: the conditions which the theorems about parsing put on lexers. *)
Theorem C71_shipped : forall g ws names rules U pick err, lexed g ws names rules -> tables_ok U -> picks pick -> err_ok err ->
  let lx := regex_lexer U pick err rules in
  progressing lx /\ (forall b r, ws (tk_ty (lx (b :: r))) = true -> b <= 32 \/ b = 47 \/ 128 <= b) /\
  (forall s, tk_ty (lx s) = ERROR \/ In (tk_ty (lx s)) (map r_ty rules)) /\
  forall txt toks k, utf8 txt -> lex lx txt = Ok toks -> aligned txt (lens (firstn k toks)).
Proof.
  intros g ws names rules U pick err L T P E lx. pose proof (lexed_proper _ _ _ _ L) as PR. pose proof (regex_progress U pick err rules P E PR) as PG.
  split; [exact PG|]. split; [|split].
  - destruct (lexed_blank _ _ _ _ L) as [B W]. exact (regex_blank U pick err rules P PR T ws B W).
  - exact (regex_types U pick err rules P PR).
  - intros txt toks k US LX. destruct (lex_ok lx txt PG) as (ts & LX' & TK). rewrite LX in LX'. injection LX' as <-.
    eapply whole_lex; [exact PG|exact (regex_whole U pick err rules P E PR)|exact TK|exact US].
Qed.
Print Assumptions C71_shipped.

(** They panic exactly on raw strings with more than 30 hashes (s-expressions, bnf, json and arith have none: never). *)
Definition raw_strings (rules : list lex_rule) : Prop := exists r, In r rules /\ r_f r = Some parse_raw_string.
Theorem C71_panics : forall g ws names rules U pick err s, lexed g ws names rules -> picks pick -> utf8 s ->
  (next_token U pick err rules s = Panic <-> raw_strings rules /\ exists n rest, 30 < n /\ s = opening n ++ rest) /\
  (next_token U pick err rules s <> Panic -> exists t, next_token U pick err rules s = Ok t).
Proof.
  intros g ws names rules U pick err s L P US. destruct (lexer_panics U pick err rules s (proj1 (lexed_proper _ _ _ _ L)) P (proj1 (Forall_forall _ _) (lexed_known _ _ _ _ L)) US) as [A B].
  split; [|exact B]. rewrite A. unfold raw_strings, raw_rule. split.
  - intros (r & I & R & X). split; [eauto|exact X].
  - intros ((r & I & R) & X). eauto.
Qed.
Print Assumptions C71_panics.

Theorem C71_raw_strings : raw_strings fall_rules /\ raw_strings rust_rules /\ raw_strings weird_rules /\
  ~ raw_strings sexp_rules /\ ~ raw_strings bnf_rules /\ ~ raw_strings json_rules /\ ~ raw_strings arith_rules.
Proof.
  assert (NO : forall rules, forallb (fun r => match r_f r with None => true | Some _ => false end) rules = true -> ~ raw_strings rules).
  { intros rules F (r & I & R). rewrite forallb_forall in F. specialize (F r I). rewrite R in F. discriminate F. }
  assert (YES : forall rules r, r_f r = Some parse_raw_string -> In r rules -> raw_strings rules) by (intros rules r A B; exists r; split; assumption).
  split; [|split; [|split; [|repeat split; apply NO; reflexivity]]].
  - apply (YES _ (mkRule 129 raw_re (Some parse_raw_string))); [reflexivity|]. apply nth_error_In with (n := 20). reflexivity.
  - apply (YES _ (mkRule 190 raw_re (Some parse_raw_string))); [reflexivity|]. apply nth_error_In with (n := 83). reflexivity.
  - apply (YES _ (mkRule 101 raw_plus_re (Some parse_raw_string))); [reflexivity|]. apply nth_error_In with (n := 1). reflexivity.
Qed.
Print Assumptions C71_raw_strings.

(** ** The hypotheses of the theorems about grammar files, Rust files and trees as texts *)

Lemma utf8_whole : forall g ws names rules U pick err binder txt, lexed g ws names rules -> tables_ok U -> picks pick -> err_ok err -> utf8 txt ->
  whole_characters (mkLang (regex_lexer U pick err rules) g ws binder) txt.
Proof. intros g ws names rules U pick err binder txt L T P E US toks k LX. exact (proj2 (proj2 (proj2 (C71_shipped g ws names rules U pick err L T P E))) txt toks k US LX). Qed.

(** A quoted string is between quotes. *)
Lemma quoted_text : forall U cs, matches U (Seq (Chr (Lit 39)) (Seq (Star (Alt (Chr (Not [39; 92])) (Seq (Chr (Lit 92)) (Chr (Not [10]))))) (Chr (Lit 39)))) cs ->
  exists b, List.concat cs = 39 :: b ++ [39].
Proof.
  intros U cs M. apply matches_seq in M. destruct M as (x & y & -> & A & M). apply matches_seq in M. destruct M as (z & w & -> & _ & C).
  apply matches_lit in A. apply matches_lit in C. subst. exists (List.concat z). rewrite !concat_app. reflexivity.
Qed.

(** Any lexer made of the lexical rules of fall satisfies the conditions of C52 to C59, on every UTF-8 text. *)
Theorem C71_fall : forall U pick err binder, tables_ok U -> picks pick -> err_ok err ->
  (forall ty sp b, binder ty sp b <= List.length sp) ->
  let L := mkLang (regex_lexer U pick err fall_rules) fall_grammar fall_ws binder in
  speaks_fall L /\ yields_tokens L /\ forall txt, utf8 txt -> whole_characters L txt.
Proof.
  intros U pick err binder T P E B L. destruct (C71_shipped _ _ _ _ U pick err lx_fall T P E) as (PG & BL & TY & WH). split; [|split].
  - constructor; [reflexivity|reflexivity|exact PG|exact BL| |exact B].
    intros s NE ET. change (l_lexer L) with (regex_lexer U pick err fall_rules) in *.
    destruct (lexer_cases U pick err fall_rules P (lexed_proper _ _ _ _ lx_fall) s) as [(r & I & TR & (cs & rest & EC & M & LEN))|X]; [|rewrite X in ET; discriminate ET].
    rewrite ET in TR. unfold fall_rules in I. repeat (destruct I as [<-|I]; [try discriminate TR|]); [|destruct I].
    cbn [r_f r_re] in *. rewrite LEN. assert (ES : s = List.concat cs ++ List.concat rest) by (rewrite <- concat_app; cbn [r_f r_re] in *; etransitivity; [symmetry; apply chars_all|f_equal; exact EC]).
    rewrite ES. rewrite firstn_app, Nat.sub_diag, firstn_all, firstn_O, app_nil_r.
    eapply quoted_text; exact M.
  - intros s _. change (l_lexer L) with (regex_lexer U pick err fall_rules). destruct (TY s) as [X|X]; [left; exact X|right].
    assert (F : forallb (fun t => (100 <=? t) && (t <=? 130)) (map r_ty fall_rules) = true) by (vm_compute; reflexivity).
    rewrite forallb_forall in F. specialize (F _ X). rewrite andb_true_iff, !Nat.leb_le in F. exact F.
  - intros txt US. exact (utf8_whole _ _ _ _ U pick err binder txt lx_fall T P E US).
Qed.
Print Assumptions C71_fall.

(** The same for Rust and C60 to C68. *)
Theorem C71_rust : forall U pick err, tables_ok U -> picks pick -> err_ok err ->
  let L := mkLang (regex_lexer U pick err rust_rules) rust_grammar rust_ws rust_binder in
  speaks_rust L /\ forall txt, utf8 txt -> whole_characters L txt.
Proof.
  intros U pick err T P E L. destruct (C71_shipped _ _ _ _ U pick err lx_rust T P E) as (PG & BL & TY & WH). split.
  - constructor; [reflexivity|reflexivity|reflexivity|exact PG|exact BL|].
    intros s _. change (l_lexer L) with (regex_lexer U pick err rust_rules). destruct (TY s) as [X|X]; [rewrite X; unfold ERROR, RS_IDENT; lia|].
    assert (F : forallb (fun t => t <=? RS_IDENT) (map r_ty rust_rules) = true) by (vm_compute; reflexivity).
    rewrite forallb_forall in F. apply Nat.leb_le. exact (F _ X).
  - intros txt US. exact (utf8_whole _ _ _ _ U pick err rust_binder txt lx_rust T P E US).
Qed.
Print Assumptions C71_rust.

(** The same for the four languages of C69 and C70. *)
Theorem C71_named : forall g ws names rules U pick err binder, named g ws names -> lexed g ws names rules -> tables_ok U -> picks pick -> err_ok err ->
  (forall ty sp b, binder ty sp b <= List.length sp) ->
  let L := mkLang (regex_lexer U pick err rules) g ws binder in
  speaks g ws names L /\ forall txt, utf8 txt -> whole_characters L txt.
Proof.
  intros g ws names rules U pick err binder N LX T P E B L. destruct (C71_shipped _ _ _ _ U pick err LX T P E) as (PG & BL & TY & WH). split.
  - constructor; [exact N|reflexivity|reflexivity|exact PG|exact BL|exact B|].
    intros s _. change (l_lexer L) with (regex_lexer U pick err rules).
    assert (IN : forallb (fun t => existsb (Nat.eqb t) (map fst names)) (ERROR :: map r_ty rules) = true).
    { clear - LX. destruct LX; vm_compute; reflexivity. }
    rewrite forallb_forall in IN. assert (J : In (tk_ty (regex_lexer U pick err rules s)) (ERROR :: map r_ty rules)) by (destruct (TY s) as [X|X]; [left; symmetry; exact X|right; exact X]).
    specialize (IN _ J). apply existsb_exists in IN. destruct IN as (x & I & EQ). apply Nat.eqb_eq in EQ. rewrite EQ. exact I.
  - intros txt US. exact (utf8_whole _ _ _ _ U pick err binder txt LX T P E US).
Qed.
Print Assumptions C71_named.

(** ** A concrete case *)

(** Tables for ASCII, error tokens of one character. *)
Definition ascii_U : tables := fun k c =>
  match c with
  | [b] =>
      (b <? 128) &&
      let alpha := ((65 <=? b) && (b <=? 90)) || ((97 <=? b) && (b <=? 122)) in
      let dig := (48 <=? b) && (b <=? 57) in
      match k with
      | Space => ((9 <=? b) && (b <=? 13)) || (b =? 32)
      | Word | XidContinue => alpha || (dig || (b =? 95))
      | Digit => dig
      | XidStart => alpha
      end
  | _ => false
  end.
Definition one_char (s : bytes) : nat := match chars s with c :: _ => List.length c | [] => 0 end.

Lemma ascii_U_ok : tables_ok ascii_U.
Proof.
  constructor.
  - intros k [|b [|c r]] H; try discriminate H. cbn [ascii_U] in H. apply andb_true_iff in H. destruct H as [L _]. apply Nat.ltb_lt in L. split.
    + cbn. split; [|constructor]. destruct (is_cont b) eqn:C; [apply cont_ge in C; lia|reflexivity].
    + intros x X. injection X as <-. unfold char_len. rewrite (proj2 (Nat.ltb_lt _ _) L). reflexivity.
  - intros k b L. cbn [ascii_U]. rewrite (proj2 (Nat.ltb_lt _ _) L). cbn [andb].
    destruct k; cbn [ascii_class]; unfold letter, digit; rewrite ?orb_true_iff, ?andb_true_iff, ?Nat.leb_le, ?Nat.eqb_eq; tauto.
Qed.

Lemma one_char_ok : err_ok one_char.
Proof.
  intros s NE. destruct s as [|b s]; [congruence|]. unfold one_char. destruct (chars_head (b :: s) b eq_refl) as (r & rest & HD & E & _).
  destruct (chars (b :: s)) as [|c cs] eqn:EC; [discriminate HD|]. cbn in HD. injection HD as ->. split.
  - rewrite E, app_length. cbn [List.length]. lia.
  - intros US. pose proof (chars_aligned (b :: s) [b :: r] cs US EC) as A. cbn [List.concat] in A. rewrite app_nil_r in A. exact A.
Qed.

Definition real_fall : language := mkLang (regex_lexer ascii_U longest one_char fall_rules) fall_grammar fall_ws (fun _ _ _ => 0).

(** rule é { 'a' r#"b"# } : the e with an accent is an error of two bytes *)
Example C71_case : speaks_fall real_fall /\ yields_tokens real_fall /\
  (let txt := FallLang.text_of "rule " ++ [195; 169] ++ FallLang.text_of " { 'a' r#""b""# }" in utf8 txt /\
   lex (l_lexer real_fall) txt = Ok [mkTok 130 4; mkTok 100 1; mkTok 0 2; mkTok 100 1; mkTok 119 1; mkTok 100 1; mkTok 128 3; mkTok 100 1; mkTok 129 6; mkTok 100 1; mkTok 120 1]).
Proof.
  destruct (C71_fall ascii_U longest one_char (fun _ _ _ => 0) ascii_U_ok longest_picks one_char_ok) as (A & B & _); [intros; lia|].
  split; [exact A|]. split; [exact B|]. split; [|vm_compute; reflexivity].
  exists (map (fun b => [b]) (FallLang.text_of "rule ") ++ [[195; 169]] ++ map (fun b => [b]) (FallLang.text_of " { 'a' r#""b""# }")).
  split; [|reflexivity]. repeat (constructor; [split; [cbn; repeat constructor|intros b H; injection H as <-; reflexivity]|]). constructor.
Qed.

Example C71_panic_case : next_token ascii_U longest one_char fall_rules (opening 31) = Panic /\ next_token ascii_U longest one_char fall_rules (opening 30) = Ok (mkTok 130 1).
Proof. vm_compute. split; reflexivity. Qed.
