(** C76, C77: rendering the tests of a grammar, and the test helpers of language authors. *)
From Coq Require Import List Arith Bool Lia String.
From Verif Require Import Base BaseFacts TextModel TextSpec TreeModel TreeSpec SearchModel LexModel LexSpec ScanModel ScanSpec ScanProofs GrammarModel GrammarData ParserModel ConvertModel FileEditSpec
  AnalysisModel AnalysisSpec ViewProofs CodegenSpec CodegenProofs PropsNest PropsComplete FallEditModel FallEditSpec PropsFallEdit FallLang
  DumpModel DumpSpec DumpProofs NameData NameModel NameProofs PropsDump HarnessModel HarnessSpec HarnessProofs.
Import ListNotations.
Open Scope list_scope.
Local Notation length := List.length.

(** * C76: rendering *)

(** The tests are sent to the rendering program in one text and cut there: they arrive as they were exactly when there are any
    and no line of them is the separator. *)
Theorem C76_split : forall ts, split stars (join stars ts) = ts <-> separable ts.
Proof. exact split_iff. Qed.
Print Assumptions C76_split.

Lemma rendered_all : forall info debug L fuel ts ds, Forall2 (tree_of info debug L fuel) ts ds ->
  flat_map_res (rendered info debug L fuel) ts = Ok (flat_map (fun d => d ++ [10; 10]) ds).
Proof.
  intros info debug L fuel ts ds F. induction F as [|t d ts ds (f & inc & P & D) F IH]; [reflexivity|]. cbn [flat_map_res flat_map].
  assert (E : rendered info debug L fuel t = Ok (d ++ [10; 10])) by (unfold rendered, parse_text; rewrite P; cbn [bind fst]; rewrite D; reflexivity).
  rewrite E. cbn [bind]. rewrite IH. reflexivity.
Qed.

Lemma contents_is : forall space g T n o, wf_file g T -> char_tree (f_text g) T -> valid g n -> test_text space g n o -> test_contents space g n = Ok o.
Proof.
  intros space g T n o WF CT V H. unfold test_text in H. unfold test_contents. rewrite (child_of_type_v g T WF HASH_STRING n V). cbn [bind]. destruct (kid g HASH_STRING n) as [m|] eqn:K.
  - destruct H as (b & LB & ->). rewrite (text_v g T WF CT m (kid_valid g T WF _ _ _ K)). cbn [bind]. rewrite (lit_body_is _ _ LB). cbn [bind]. rewrite trim_is. reflexivity.
  - subst o. reflexivity.
Qed.

(** Rendering the tests of a grammar writes the tree of each of them, in order, each followed by two line breaks; tests without
    a text are left out. *)
Theorem C76_all : forall space info debug L fuel g T os ds, wf_file g T -> char_tree (f_text g) T ->
  Forall2 (test_text space g) (kids_of g TEST_DEF 0) os -> separable (given os) -> Forall2 (tree_of info debug L fuel) (given os) ds ->
  render_all space info debug L fuel g None = Ok (flat_map (fun d => d ++ [10; 10]) ds).
Proof.
  intros space info debug L fuel g T os ds WF CT TT SP TR. unfold render_all. change root with 0. rewrite (children_is_v g T WF TEST_DEF 0 (root_valid g T WF)). cbn [bind].
  assert (V : Forall (fun n => valid g n) (kids_of g TEST_DEF 0)).
  { apply Forall_forall. intros n I. unfold kids_of in I. apply filter_In in I. apply (kids_valid g T WF 0 n (proj1 I)). }
  assert (E : flat_map_res (fun n => o <- test_contents space g n ;; Ok (match o with Some t => [t] | None => [] end)) (kids_of g TEST_DEF 0) = Ok (given os)).
  { clear SP TR. revert V. induction TT as [|n o ns os H TT IH]; intros V; [reflexivity|]. inversion V; subst. cbn [flat_map_res]. rewrite (contents_is space g T n o WF CT ltac:(assumption) H). cbn [bind].
    rewrite IH by assumption. reflexivity. }
  rewrite E. cbn [bind]. unfold child. rewrite (proj2 (split_iff _) SP). apply rendered_all. exact TR.
Qed.
Print Assumptions C76_all.

(** "Render test" in the editor renders the test under the cursor. *)
Theorem C76_one : forall space info debug L fuel Lf txt g o i, grammar_file Lf txt g -> o <= length txt -> test_at_offset g o = Ok (Some i) ->
  exists n, in_test g o i /\ nth_error (kids_of g TEST_DEF 0) i = Some n /\
    forall t d, test_text space g n (Some t) -> (forall j, ~ occurs stars t j) -> tree_of info debug L fuel t d ->
      render_one space info debug L fuel g i = Ok (d ++ [10; 10]).
Proof.
  intros space info debug L fuel Lf txt g o i G LE TA. destruct (C58_test Lf txt g o G LE) as (a & EA & IA). rewrite TA in EA. injection EA as <-. destruct (IA i) as (I1 & _). pose proof (I1 eq_refl) as IT.
  destruct (grammar_facts Lf txt g G) as (T & WF & _ & CT & _). pose proof IT as (k & n & _ & _ & N). exists n. split; [exact IT|]. split; [exact N|].
  intros t d TT NS TR. unfold render_one. change root with 0. rewrite (children_is_v g T WF TEST_DEF 0 (root_valid g T WF)). cbn [bind]. rewrite N.
  assert (V : valid g n). { apply nth_error_In in N. unfold kids_of in N. apply filter_In in N. exact (kids_valid g T WF 0 n (proj1 N)). }
  rewrite (contents_is space g T n (Some t) WF CT V TT). cbn [bind]. unfold render_all. cbn [bind]. unfold child.
  replace (split stars t) with [t].
  2:{ symmetry. apply (proj2 (split_iff [t])). exists [], t. split; [reflexivity|]. split; [exact NS|constructor]. }
  rewrite (rendered_all info debug L fuel [t] [d]); [|constructor; [exact TR|constructor]]. cbn [flat_map]. rewrite app_nil_r. reflexivity.
Qed.
Print Assumptions C76_one.

(** ** Reading the output *)

Lemma names_visible : forall g ws names, named g ws names -> forall t, In t (map fst names) -> name_of names t <> [] /\ Forall visible (name_of names t).
Proof.
  intros g ws names N t J.
  assert (C : forallb (fun t => negb (length (name_of names t) =? 0) && forallb (fun b => (33 <=? b) && (b <=? 126)) (name_of names t)) (map fst names) = true) by (destruct N; vm_compute; reflexivity).
  rewrite forallb_forall in C. apply C, andb_true_iff in J. destruct J as (A & B). split; [intros E; rewrite E in A; discriminate A|].
  apply Forall_forall. intros b I. rewrite forallb_forall in B. apply B, andb_true_iff in I. destruct I as (X & Y). apply Nat.leb_le in X. apply Nat.leb_le in Y. split; assumption.
Qed.

Lemma quoted_form : forall s, exists m, quoted s = 34 :: m ++ [34] /\ ~ In 10 m.
Proof.
  intros s. exists (flat_map escaped s). split; [reflexivity|]. assert (N : ~ In 10 (quoted s)) by (apply (lg_lines _ _ _ (proj1 (C69_names fall_names fall_ws (g_types fall_grammar) (or_introl eq_refl))))).
  intros I. apply N. unfold quoted. apply in_or_app. right. apply in_or_app. left. exact I.
Qed.

(** The form of a tree of a shipped language, with errors or without: lines that are not blank. *)
Lemma form : forall g ws names f T shown b, named g ws names -> wf_file f T -> char_tree (f_text f) T -> (forall n, valid f n -> In (ty f n) (map fst names)) ->
  dump (info_of names) quoted f shown = Ok b -> b = [] \/ exists l ls, b = lines_of (l :: ls) /\ line l /\ Forall line ls /\
    exists x m, l = x :: m /\ visible x /\ match m with [] => True | y :: _ => y < 128 end.
Proof.
  intros g ws names f T shown b N WF CT KN E. pose proof (named_ok _ _ _ N) as C.
  destruct (dump_ok (info_of names) quoted (name_of names) ws f T WF CT (fun n V => names_known _ _ _ C _ (KN n V)) shown) as (b' & E' & D). rewrite E in E'. injection E' as <-.
  destruct (dumped_form (name_of names) ws quoted f (fun t => In t (map fst names)) (names_visible g ws names N) quoted_form KN (fun n k _ J => kids_valid f T WF n k J) shown 0 0 b D (root_valid f T WF))
    as [(-> & _)|(l & ls & -> & L1 & L2 & x & m & E2 & X)]; [left; reflexivity|]. right. exists l, ls. split; [reflexivity|]. split; [exact L1|]. split; [exact L2|]. exists x, m. split; [exact E2|exact X].
Qed.

(** The output tells how many tests there were and which tree each of them has: nothing runs together. *)
Theorem C76_legible : forall g ws names L fuel ts ts' ds ds', speaks g ws names L -> Forall (whole_characters L) ts -> Forall (whole_characters L) ts' ->
  Forall2 (tree_of (info_of names) quoted L fuel) ts ds -> Forall2 (tree_of (info_of names) quoted L fuel) ts' ds' ->
  flat_map (fun d => d ++ [10; 10]) ds = flat_map (fun d => d ++ [10; 10]) ds' -> ds = ds'.
Proof.
  intros g ws names L fuel ts ts' ds ds' SK WC WC' F F' E.
  assert (G : forall us es, Forall (whole_characters L) us -> Forall2 (tree_of (info_of names) quoted L fuel) us es -> Forall (fun d => exists ls, d = lines_of ls /\ Forall line ls) es).
  { clear - SK. intros us es W H. induction H as [|t d us es (f & inc & P & D) H IH]; constructor; inversion W; subst; [|auto].
    destruct (speaks_facts _ _ _ _ _ _ _ _ SK ltac:(eassumption) P) as (T & WF & TX & CT & KN).
    destruct (form g ws names f T false d (sk_named _ _ _ _ SK) WF CT KN D) as [->|(l & ls & -> & L1 & L2 & _)]; [exists []; split; [reflexivity|constructor]|]. exists (l :: ls). split; [reflexivity|constructor; assumption]. }
  pose proof (G _ _ WC F) as GD. pose proof (G _ _ WC' F') as GD'. clear - GD GD' E. revert ds' GD' E. induction GD as [|d ds (ls & -> & L1) GD IH]; intros ds' GD' E.
  - destruct ds' as [|d' ds']; [reflexivity|]. exfalso. cbn [flat_map] in E. destruct d'; discriminate E.
  - destruct GD' as [|d' ds' (ls' & -> & L1') GD']; [exfalso; cbn [flat_map] in E; destruct (lines_of ls); discriminate E|].
    cbn [flat_map] in E. rewrite <- !app_assoc in E. destruct (blocks_step ls ls' _ _ L1 L1' E) as (-> & E2). rewrite (IH ds' GD' E2). reflexivity.
Qed.
Print Assumptions C76_legible.

(** ** Cases *)

Definition ascii_space (c : bytes) : bool := match c with [b] => (b =? 32) || ((9 <=? b) && (b <=? 13)) | _ => false end.
Lemma ascii_space_ok : space_ok ascii_space.
Proof.
  split; [reflexivity|]. intros b (A & B). cbn. apply orb_false_iff. split; [apply Nat.eqb_neq; lia|]. apply andb_false_iff. right. apply Nat.leb_gt. lia.
Qed.

Definition shown_for (s : bytes) : option bytes :=
  match parse_file fall_lang 5000 s with
  | Ok (g, _) => match render_all ascii_space (info_of fall_names) quoted fall_lang 5000 g None with Ok b => Some b | _ => None end
  | _ => None
  end.

(** A grammar with two tests and one that lacks a text, rendered with the language of grammars itself. *)
Definition three_tests := FallLang.text_of "test r"" rule a "" test test r#"" pub ""#".
Example C76_case : separable (map FallLang.text_of ["rule a"; "pub"]%string) /\
  shown_for three_tests = Some (lines ["FALL_FILE"; "  SYN_RULE"; "    RULE ""rule"""; "    IDENT ""a"""; "    ERROR """""; ""; ""; "FALL_FILE"; "  ERROR"; "    IDENT ""pub"""; ""; ""]%string).
Proof.
  split; [|vm_compute; reflexivity]. exists [FallLang.text_of "rule a"], (FallLang.text_of "pub"). split; [reflexivity|]. split; [apply occurs_none; vm_compute; reflexivity|].
  constructor; [|constructor]. apply occurs_none. vm_compute. reflexivity.
Qed.

(** With the cursor in the second test of the two. *)
Definition shown_at (s : bytes) (o : nat) : option bytes :=
  match parse_file fall_lang 5000 s with
  | Ok (g, _) => match test_at_offset g o with
                 | Ok (Some i) => match render_one ascii_space (info_of fall_names) quoted fall_lang 5000 g i with Ok b => Some b | _ => None end
                 | _ => None
                 end
  | _ => None
  end.
Example C76_one_case : shown_at two_tests 41 = Some (lines ["FALL_FILE"; "  ERROR"; "    IDENT ""y"""; ""; ""]%string) /\ shown_at two_tests 5 = None.
Proof. split; vm_compute; reflexivity. Qed.

(** ** What goes wrong *)

(** A grammar without tests: a tree is shown nevertheless, that of the empty text. *)
Theorem C76_none_refuted : shown_for (FallLang.text_of "rule a { }") = Some (lines ["FALL_FILE """""; ""; ""]%string).
Proof. vm_compute. reflexivity. Qed.
Print Assumptions C76_none_refuted.

(** A test with the separator in it is shown as two. *)
Theorem C76_separator_refuted : exists t, ~ separable [t] /\
  shown_for (FallLang.text_of "test r""" ++ t ++ [34]) = Some (lines ["FALL_FILE"; "  ERROR"; "    IDENT ""pub"""; ""; ""; "FALL_FILE"; "  ERROR"; "    IDENT ""pub"""; ""; ""]%string).
Proof.
  exists (FallLang.text_of "pub" ++ stars ++ FallLang.text_of "pub"). split; [|vm_compute; reflexivity].
  intros SP. apply (proj2 (split_iff _)) in SP. vm_compute in SP. discriminate SP.
Qed.
Print Assumptions C76_separator_refuted.

(** * C77: test helpers *)

(** [report_diff], on which all of them rely, fails exactly when the texts differ inside: whitespace at the ends is ignored. *)
Theorem C77_diff : forall space e a, utf8 e -> utf8 a -> (report_diff space e a = Ok tt <-> same_inside space e a) /\ (report_diff space e a = Panic <-> ~ same_inside space e a).
Proof.
  intros space e a UE UA. rewrite <- (trim_same space e a UE UA), <- (report_iff space e a). destruct (report_or space e a) as [R|R]; rewrite R; split; split; intros H; auto; solve [discriminate H|discriminate|exfalso; apply H; reflexivity].
Qed.
Print Assumptions C77_diff.

(** [f] is a file in whose tree all types are those with the names [names], and which cuts no character; the trees of the shipped
    languages are of this kind ([parsed_file]). *)
Definition a_file (names : list (nat * (string * bool))) (f : file) : Prop :=
  exists T, wf_file f T /\ char_tree (f_text f) T /\ forall n, valid f n -> In (ty f n) (map fst names).

Lemma parsed_file : forall g ws names L fuel txt f inc, speaks g ws names L -> whole_characters L txt -> parse_file L fuel txt = Ok (f, inc) -> a_file names f.
Proof.
  intros g ws names L fuel txt f inc SK WC H. destruct (speaks_facts _ _ _ _ _ _ _ _ SK WC H) as (T & WF & TX & CT & KN). exists T. auto.
Qed.

Lemma file_dump : forall g ws names f shown, named g ws names -> a_file names f -> exists b, dump (info_of names) quoted f shown = Ok b /\ (b = [] \/ tree_text b).
Proof.
  intros g ws names f shown N (T & WF & CT & KN). destruct (dump_ok (info_of names) quoted (name_of names) ws f T WF CT (fun n V => names_known _ _ _ (named_ok _ _ _ N) _ (KN n V)) shown) as (b & E & _).
  exists b. split; [exact E|]. exact (form g ws names f T shown b N WF CT KN E).
Qed.

Lemma trim_tree : forall space b b', space_ok space -> (b = [] \/ tree_text b) -> (b' = [] \/ tree_text b') -> trim_str space b = trim_str space b' -> b = b'.
Proof.
  intros space b b' SP H H' E.
  assert (G : forall b, tree_text b -> trim_str space b ++ [10] = b /\ trim_str space b <> []).
  { clear - SP. intros b TB. assert (Q : trim_str space b ++ [10] = b) by (destruct TB as (l & ls & -> & L1 & L2 & X); apply (trim_lines space l ls SP L1 L2 X)). split; [exact Q|]. intros Z. rewrite Z in Q. exact (proj1 (tree_blank _ TB) [] (eq_sym Q)). }
  destruct H as [->|H]; destruct H' as [->|H'].
  - reflexivity.
  - exfalso. apply (proj2 (G _ H')). rewrite <- E. reflexivity.
  - exfalso. apply (proj2 (G _ H)). rewrite E. reflexivity.
  - rewrite <- (proj1 (G _ H)), <- (proj1 (G _ H')), E. reflexivity.
Qed.

Lemma inside_trim : forall space s t, same_inside space s t -> trim_str space s = trim_str space t.
Proof.
  intros space s t (x & y & x' & y' & core & X & Y & F). rewrite !Forall_app in F. destruct F as (F1 & F2 & F3 & F4). unfold trim_str. fold (trimmed space (chars s)). fold (trimmed space (chars t)). rewrite X, Y, !trimmed_core by assumption. reflexivity.
Qed.

(** Comparing two files: it succeeds exactly when they are the same, with all nodes and the text; it never fails otherwise. *)
Theorem C77_equal_files : forall space g ws names f f', space_ok space -> named g ws names -> a_file names f -> a_file names f' ->
  (check_equal_files space (info_of names) quoted f f' = Ok tt <-> f = f') /\ (check_equal_files space (info_of names) quoted f f' = Panic <-> f <> f').
Proof.
  intros space g ws names f f' SP N A A'. destruct (file_dump _ _ _ _ true N A) as (b & E & TB). destruct (file_dump _ _ _ _ true N A') as (b' & E' & TB').
  assert (I : check_equal_files space (info_of names) quoted f f' = report_diff space b b') by (unfold check_equal_files, dump_file_ws; rewrite E; cbn [bind]; rewrite E'; reflexivity).
  assert (Q : report_diff space b b' = Ok tt <-> f = f').
  { rewrite report_iff. split.
    - intros H. pose proof (trim_tree space b b' SP TB TB' H) as <-. destruct A as (T & WF & CT & KN). destruct A' as (T' & WF' & CT' & KN'). pose proof (named_ok _ _ _ N) as C.
      apply (C70_same names quoted ws f T f' T' (names_legible _ _ _ C) (names_known _ _ _ C)); auto. unfold dump_file_ws. rewrite E, E'. reflexivity.
    - intros <-. rewrite E in E'. injection E' as <-. reflexivity. }
  rewrite I. split; [exact Q|]. rewrite <- Q. destruct (report_or space b b') as [R|R]; rewrite R; split; intros H; auto; solve [discriminate H|discriminate|exfalso; apply H; reflexivity].
Qed.
Print Assumptions C77_equal_files.

(** A test of a parser: the tree written in the test, with any whitespace around it, is compared with the tree of the text. It
    succeeds exactly when their lines are the same. *)
Theorem C77_syntax : forall space g ws names L fuel txt f inc e f' d', space_ok space -> speaks g ws names L -> whole_characters L txt -> parse_file L fuel txt = Ok (f, inc) ->
  a_file names f' -> dump_file (info_of names) quoted f' = Ok d' -> same_inside space e d' ->
  (check_syntax space (info_of names) quoted L fuel txt e = Ok tt <-> dump_file (info_of names) quoted f = Ok d')
  /\ (check_syntax space (info_of names) quoted L fuel txt e = Panic <-> dump_file (info_of names) quoted f <> Ok d').
Proof.
  intros space g ws names L fuel txt f inc e f' d' SP SK WC P A' D' SI. destruct (file_dump _ _ _ _ false (sk_named _ _ _ _ SK) (parsed_file _ _ _ _ _ _ _ _ SK WC P)) as (b & E & TB).
  destruct (file_dump _ _ _ _ false (sk_named _ _ _ _ SK) A') as (b' & E' & TB'). unfold dump_file in *. rewrite E' in D'. injection D' as <-.
  assert (I : check_syntax space (info_of names) quoted L fuel txt e = report_diff space e b) by (unfold check_syntax, parse_text, dump_file; rewrite P; cbn [bind fst]; rewrite E; reflexivity).
  assert (Q : report_diff space e b = Ok tt <-> dump (info_of names) quoted f false = Ok b').
  { rewrite report_iff, (inside_trim space e b' SI), E. split; [intros H; rewrite (trim_tree space b' b SP TB' TB H); reflexivity|intros H; injection H as ->; reflexivity]. }
  rewrite I. split; [exact Q|]. rewrite <- Q. destruct (report_or space e b) as [R|R]; rewrite R; split; intros H; auto; solve [discriminate H|discriminate|exfalso; apply H; reflexivity].
Qed.
Print Assumptions C77_syntax.

(** The same with whitespace: then the whole file is determined. *)
Theorem C77_syntax_ws : forall space g ws names L fuel txt f inc e f' d', space_ok space -> speaks g ws names L -> whole_characters L txt -> parse_file L fuel txt = Ok (f, inc) ->
  a_file names f' -> dump_file_ws (info_of names) quoted f' = Ok d' -> same_inside space e d' ->
  (check_syntax_ws space (info_of names) quoted L fuel txt e = Ok tt <-> f = f') /\ (check_syntax_ws space (info_of names) quoted L fuel txt e = Panic <-> f <> f').
Proof.
  intros space g ws names L fuel txt f inc e f' d' SP SK WC P A' D' SI. pose proof (parsed_file _ _ _ _ _ _ _ _ SK WC P) as A.
  destruct (file_dump _ _ _ _ true (sk_named _ _ _ _ SK) A) as (b & E & TB).
  assert (I : check_syntax_ws space (info_of names) quoted L fuel txt e = check_equal_files space (info_of names) quoted f' f).
  { unfold check_syntax_ws, check_equal_files, parse_text. rewrite P, D'. cbn [bind fst]. unfold dump_file_ws. rewrite E. cbn [bind]. unfold report_diff, compute_diff. rewrite (inside_trim space e d' SI). reflexivity. }
  rewrite I. destruct (C77_equal_files space g ws names f' f SP (sk_named _ _ _ _ SK) A' A) as (H1 & H2). rewrite H1, H2. split; split; congruence.
Qed.
Print Assumptions C77_syntax_ws.

(** Recorded trees of whole files: a missing record fails; rewriting makes the check succeed, and leaves a record alone for
    which it succeeds already. *)
Theorem C77_file : forall space info debug L fuel txt d, tree_of info debug L fuel txt d ->
  check_file space info debug L fuel false (Some txt) None = Panic
  /\ (forall e, check_file space info debug L fuel false (Some txt) (Some e) = Ok (Some e) \/ check_file space info debug L fuel false (Some txt) (Some e) = Panic)
  /\ (forall e, utf8 e -> utf8 d -> (check_file space info debug L fuel false (Some txt) (Some e) = Ok (Some e) <-> same_inside space e d))
  /\ (forall old, exists new, check_file space info debug L fuel true (Some txt) old = Ok (Some new) /\ check_file space info debug L fuel false (Some txt) (Some new) = Ok (Some new)
       /\ (check_file space info debug L fuel false (Some txt) old = Ok old -> old = Some new)).
Proof.
  intros space info debug L fuel txt d (f & inc & P & D).
  assert (G : forall rw tree, check_file space info debug L fuel rw (Some txt) tree = match rw, tree with
    | true, None => Ok (Some d) | false, None => Panic | true, Some e => Ok (Some (if compute_diff space e d then d else e)) | false, Some e => _ <- report_diff space e d ;; Ok tree end).
  { intros rw tree. unfold check_file, parse_text. cbn [unwrap bind]. rewrite P. cbn [bind fst]. rewrite D. reflexivity. }
  assert (SELF : forall e, report_diff space e e = Ok tt) by (intros e; apply report_iff; reflexivity).
  split; [rewrite G; reflexivity|]. split; [intros e; rewrite G; destruct (report_or space e d) as [->| ->]; auto|].
  split.
  - intros e UE UD. rewrite G, <- (trim_same space e d UE UD), <- report_iff. destruct (report_or space e d) as [->| ->]; cbn [bind]; split; auto; discriminate.
  - intros [e|].
    + exists (if compute_diff space e d then d else e). rewrite !G. split; [reflexivity|]. unfold report_diff. destruct (compute_diff space e d) eqn:Q.
      * cbn [bind]. split; [|discriminate]. specialize (SELF d). unfold report_diff in SELF. destruct (compute_diff space d d); [discriminate SELF|reflexivity].
      * rewrite Q. cbn [bind]. auto.
    + exists d. rewrite !G, SELF. cbn [bind]. split; [reflexivity|]. split; [reflexivity|discriminate].
Qed.
Print Assumptions C77_file.

Example C77_syntax_case :
  let good := [10; 32] ++ lines ["FALL_FILE"; "  ERROR"; "    IDENT ""y"""]%string ++ [10; 32; 32] in
  let bad := lines ["FALL_FILE"; "  ERROR"; "    IDENT ""x"""]%string in
  check_syntax ascii_space (info_of fall_names) quoted fall_lang 5000 (FallLang.text_of "y") good = Ok tt
  /\ check_syntax ascii_space (info_of fall_names) quoted fall_lang 5000 (FallLang.text_of "y") bad = Panic
  /\ fall_dump (FallLang.text_of "x") false = Some bad /\ same_inside ascii_space good (lines ["FALL_FILE"; "  ERROR"; "    IDENT ""y"""]%string).
Proof.
  cbn zeta. split; [vm_compute; reflexivity|]. split; [vm_compute; reflexivity|]. split; [vm_compute; reflexivity|].
  exists [[10]; [32]], [[10]; [32]; [32]], [], [], (chars (lines ["FALL_FILE"; "  ERROR"; "    IDENT ""y"""]%string)). split; [vm_compute; reflexivity|]. split; [cbn [app]; rewrite app_nil_r; reflexivity|repeat constructor].
Qed.

(** ** Tests inside a grammar *)

Lemma render_is : forall info debug L fuel ts ds, Forall2 (tree_of info debug L fuel) ts ds -> render_tests info debug L fuel ts = Ok (record (combine ts ds)).
Proof.
  intros info debug L fuel ts ds F. unfold render_tests. induction F as [|t d ts ds (f & inc & P & D) F IH]; [reflexivity|]. cbn [flat_map_res].
  assert (E : render_section info debug L fuel t = Ok (t ++ [10; 10] ++ d ++ [10] ++ dashes ++ [10])) by (unfold render_section, parse_text; rewrite P; cbn [bind fst]; rewrite D; reflexivity).
  rewrite E. cbn [bind]. rewrite IH. reflexivity.
Qed.

Lemma record_is : forall l, record l = recorded l.
Proof. intros l. unfold record, recorded. apply flat_map_ext. intros (t & d). unfold sec. cbn [fst snd]. rewrite <- !app_assoc. reflexivity. Qed.

(** Rewriting records the tree of every test of the grammar, in order, and afterwards the check succeeds. *)
Theorem C77_rewrite : forall space info debug L fuel grammar tests ds old, collect_tests (trim_str space) grammar = Ok tests -> Forall2 (tree_of info debug L fuel) tests ds ->
  exists new, check_inline_tests space info debug L fuel true (Some grammar) old = Ok new
    /\ match new with Some s => s | None => [] end = record (combine tests ds)
    /\ check_inline_tests space info debug L fuel false (Some grammar) new = Ok new.
Proof.
  intros space info debug L fuel grammar tests ds old C F.
  assert (G : forall rw old, check_inline_tests space info debug L fuel rw (Some grammar) old =
    let expected := record (combine tests ds) in let actual := match old with Some s => s | None => [] end in
    if bytes_eqb expected actual then Ok old else if rw then Ok (Some expected) else _ <- check_sections space (combine (split dashes expected) (split dashes actual)) ;; Ok old).
  { intros rw o. unfold check_inline_tests. cbn [unwrap bind]. rewrite C. cbn [bind]. rewrite (render_is _ _ _ _ _ _ F). reflexivity. }
  assert (REFL : forall s, bytes_eqb s s = true) by (intros s; apply (list_eqb_spec _ Nat.eqb Nat.eqb_eq); reflexivity).
  rewrite G. cbn zeta. destruct (bytes_eqb (record (combine tests ds)) (match old with Some s => s | None => [] end)) eqn:Q.
  - exists old. split; [reflexivity|]. pose proof Q as Q'. apply (list_eqb_spec _ Nat.eqb Nat.eqb_eq) in Q'. split; [symmetry; exact Q'|]. rewrite G. cbn zeta. rewrite Q. reflexivity.
  - exists (Some (record (combine tests ds))). split; [reflexivity|]. split; [reflexivity|]. rewrite G. cbn zeta. rewrite REFL. reflexivity.
Qed.
Print Assumptions C77_rewrite.

(** A record made earlier, of whatever tests and trees: the check succeeds exactly when it has the tests of the grammar, with
    the trees they have now. Not one may be missing, added, moved or changed. *)
Theorem C77_inline : forall space g ws names L fuel grammar tests ds old, space_ok space -> speaks g ws names L ->
  collect_tests (trim_str space) grammar = Ok tests -> Forall utf8 tests -> Forall (whole_characters L) tests -> Forall2 (tree_of (info_of names) quoted L fuel) tests ds ->
  Forall (fun x => utf8 (fst x) /\ trim_str space (fst x) = fst x /\ exists f, a_file names f /\ dump_file (info_of names) quoted f = Ok (snd x) /\ snd x <> []) old ->
  Forall (fun d => d <> []) ds -> Forall (fun x => forall j, ~ occurs dashes (fst x ++ [10; 10] ++ snd x ++ [10]) j) (old ++ combine tests ds) ->
  (check_inline_tests space (info_of names) quoted L fuel false (Some grammar) (Some (record old)) = Ok (Some (record old)) <-> old = combine tests ds)
  /\ (check_inline_tests space (info_of names) quoted L fuel false (Some grammar) (Some (record old)) = Panic <-> old <> combine tests ds).
Proof.
  intros space g ws names L fuel grammar tests ds old SP SK CT UT WC TR OLD ND NDASH.
  assert (U0 : forall t, utf8 t -> match t with [] => True | b :: _ => is_cont b = false end).
  { clear. intros t (cs & F & ->). destruct F as [|c cs (V & _) F]; [exact I|]. destruct c as [|b c]; [destruct V|]. cbn [concat app]. apply V. }
  apply Forall_app in NDASH. destruct NDASH as (N1 & N2).
  assert (O1 : Forall (sec_ok space) old).
  { clear - OLD N1 U0 SK. apply Forall_forall. intros x I. rewrite Forall_forall in OLD, N1. destruct (OLD x I) as (U & TT & f & A & D & NE). split; [apply U0; exact U|]. split; [exact TT|]. split; [|exact (N1 x I)].
    destruct (file_dump _ _ _ _ false (sk_named _ _ _ _ SK) A) as (b & E & TB). unfold dump_file in D. rewrite E in D. injection D as D. rewrite D in TB. destruct TB as [TB|TB]; [contradiction|exact TB]. }
  assert (TT : Forall (fun t => trim_str space t = t) tests).
  { clear - CT. unfold collect_tests in CT. assert (G : forall k s acc out, Forall (fun t => trim_str space t = t) acc -> collect_loop (trim_str space) k s acc = Ok out -> Forall (fun t => trim_str space t = t) out).
    { induction k as [|k IH]; intros s acc out A H; [discriminate H|]. cbn [collect_loop] in H.
      destruct (find_sub s_test_r s) as [pos|]; [|injection H as <-; exact A]. destruct (ScanModel.suffix s (pos + length s_test_r)) as [s1| |]; cbn [bind] in H; try discriminate H.
      destruct (ScanModel.suffix s1 (count_hashes s1 + 1)) as [s2| |]; cbn [bind] in H; try discriminate H. destruct (upto (34 :: repeat 35 16) (1 + count_hashes s1)) as [cl| |]; cbn [bind] in H; try discriminate H.
      destruct (find_sub cl s2) as [e|]; [|exact (IH _ _ _ A H)]. destruct (upto s2 e) as [ex| |]; cbn [bind] in H; try discriminate H. refine (IH _ _ _ _ H). apply Forall_app. split; [exact A|]. constructor; [apply trim_twice|constructor]. }
    eapply G; [constructor|exact CT]. }
  assert (O2 : Forall (sec_ok space) (combine tests ds)).
  { clear - TR UT WC ND N2 TT U0 SK. revert UT WC ND N2 TT. induction TR as [|t d ts ds (f & inc & P & D) TR IH]; intros; [constructor|]. cbn [combine] in *. inversion UT; inversion WC; inversion ND; inversion N2; inversion TT; subst. constructor; [|auto].
    split; [apply U0; assumption|]. split; [assumption|]. split; [|assumption].
    destruct (file_dump _ _ _ _ false (sk_named _ _ _ _ SK) (parsed_file _ _ _ _ _ _ _ _ SK ltac:(eassumption) P)) as (b & E & TB). unfold dump_file in D. rewrite E in D. injection D as D. rewrite D in TB. destruct TB as [TB|TB]; [contradiction|exact TB]. }
  set (c := check_sections space (combine (split dashes (record (combine tests ds))) (split dashes (record old)))).
  assert (CS : c = Ok tt <-> combine tests ds = old).
  { unfold c. rewrite sections_iff, !record_is. unfold split.
    pose proof (split_recorded space (combine tests ds) [] _ O2 (or_introl eq_refl) (le_n _)) as E2. pose proof (split_recorded space old [] _ O1 (or_introl eq_refl) (le_n _)) as E1. cbn [app] in E1, E2. rewrite E1, E2. apply (parts_match space _ _ [] [] SP O2 O1); left; reflexivity. }
  assert (R : check_inline_tests space (info_of names) quoted L fuel false (Some grammar) (Some (record old)) = (_ <- c ;; Ok (Some (record old)))).
  { unfold check_inline_tests. cbn [unwrap bind]. rewrite CT. cbn [bind]. rewrite (render_is _ _ _ _ _ _ TR). cbn [bind]. destruct (bytes_eqb (record (combine tests ds)) (record old)) eqn:Q; [|reflexivity].
    apply (list_eqb_spec _ Nat.eqb Nat.eqb_eq) in Q. assert (C1 : c = Ok tt); [|rewrite C1; reflexivity]. unfold c. rewrite Q. apply sections_iff. clear.
    induction (split dashes (record old)) as [|s l IH]; constructor; auto. }
  rewrite R. destruct (sections_or space (combine (split dashes (record (combine tests ds))) (split dashes (record old)))) as [H|H]; fold c in H; rewrite H in *; cbn [bind]; split; split; intros X; auto; try discriminate X.
  - symmetry. apply CS. reflexivity.
  - exfalso. apply X. symmetry. apply CS. reflexivity.
  - exfalso. apply eq_sym, CS in X. discriminate X.
  - intros E. apply eq_sym, CS in E. discriminate E.
Qed.
Print Assumptions C77_inline.

(** *** Cases *)

Definition two := FallLang.text_of "test r"" rule a "" test r"" pub """.
Definition inline_check (rewrite : bool) (grammar : bytes) (data : option bytes) : res (option bytes) := check_inline_tests ascii_space (info_of fall_names) quoted fall_lang 5000 rewrite (Some grammar) data.
Definition first_tree := lines ["FALL_FILE"; "  SYN_RULE"; "    RULE ""rule"""; "    IDENT ""a"""; "    ERROR """""]%string.
Definition second_tree := lines ["FALL_FILE"; "  ERROR"; "    IDENT ""pub"""]%string.
Definition recorded_two : list (bytes * bytes) := [(FallLang.text_of "rule a", first_tree); (FallLang.text_of "pub", second_tree)].

Lemma fall_tree_of : forall t d, fall_dump t false = Some d -> tree_of (info_of fall_names) quoted fall_lang 5000 t d.
Proof.
  intros t d H. unfold fall_dump in H. destruct (parse_file fall_lang 5000 t) as [(f, inc)| |] eqn:P; try discriminate H. exists f, inc. split; [exact P|]. unfold dump_file. destruct (dump (info_of fall_names) quoted f false) as [b| |]; try discriminate H. injection H as ->. reflexivity.
Qed.
Lemma fall_a_file : forall t d, forallb (fun b => b <? 128) t = true -> fall_dump t false = Some d -> exists f, a_file fall_names f /\ dump_file (info_of fall_names) quoted f = Ok d.
Proof.
  intros t d A H. destruct (fall_tree_of t d H) as (f & inc & P & D). exists f. split; [exact (parsed_file _ _ _ _ _ _ _ _ C69_fall_lang (dump_case t A) P)|exact D].
Qed.

(** The hypotheses hold of a grammar with two tests and of a record in which one of the trees is an old one; the check fails. *)
Example C77_case :
  let old := [(FallLang.text_of "rule a", first_tree); (FallLang.text_of "pub", first_tree)] in
  collect_tests (trim_str ascii_space) two = Ok (map fst recorded_two) /\ Forall utf8 (map fst recorded_two) /\ Forall (whole_characters fall_lang) (map fst recorded_two)
  /\ Forall2 (tree_of (info_of fall_names) quoted fall_lang 5000) (map fst recorded_two) (map snd recorded_two)
  /\ Forall (fun x => utf8 (fst x) /\ trim_str ascii_space (fst x) = fst x /\ exists f, a_file fall_names f /\ dump_file (info_of fall_names) quoted f = Ok (snd x) /\ snd x <> []) old
  /\ Forall (fun d => d <> []) (map snd recorded_two) /\ Forall (fun x => forall j, ~ occurs dashes (fst x ++ [10; 10] ++ snd x ++ [10]) j) (old ++ combine (map fst recorded_two) (map snd recorded_two))
  /\ inline_check false two (Some (record old)) = Panic /\ inline_check false two (Some (record recorded_two)) = Ok (Some (record recorded_two)) /\ inline_check true two (Some (record old)) = Ok (Some (record recorded_two)).
Proof.
  intros old.
  assert (U : utf8 (FallLang.text_of "rule a") /\ utf8 (FallLang.text_of "pub")) by (split; apply ascii_utf8; cbn; repeat (apply Forall_cons; [lia|]); apply Forall_nil).
  assert (T1 : fall_dump (FallLang.text_of "rule a") false = Some first_tree) by (vm_compute; reflexivity). assert (T2 : fall_dump (FallLang.text_of "pub") false = Some second_tree) by (vm_compute; reflexivity).
  assert (D1 : exists f, a_file fall_names f /\ dump_file (info_of fall_names) quoted f = Ok first_tree) by (apply (fall_a_file (FallLang.text_of "rule a")); [reflexivity|exact T1]).
  assert (N1 : first_tree <> []) by (intros E; vm_compute in E; discriminate E).
  split; [vm_compute; reflexivity|]. split; [constructor; [apply U|constructor; [apply U|constructor]]|].
  split; [constructor; [apply dump_case; reflexivity|constructor; [apply dump_case; reflexivity|constructor]]|].
  split; [constructor; [apply fall_tree_of; exact T1|constructor; [apply fall_tree_of; exact T2|constructor]]|].
  split.
  { destruct D1 as (f & A & D). unfold old. repeat (apply Forall_cons; [split; [apply U|]; split; [vm_compute; reflexivity|]; exists f; auto|]). apply Forall_nil. }
  split; [constructor; [exact N1|constructor; [intros E; vm_compute in E; discriminate E|constructor]]|].
  split.
  { apply Forall_forall. intros x I. apply occurs_none. revert x I. apply Forall_forall. unfold old. cbn [app map combine recorded_two fst snd]. repeat (apply Forall_cons; [vm_compute; reflexivity|]). apply Forall_nil. }
  split; [vm_compute; reflexivity|]. split; vm_compute; reflexivity.
Qed.

(** *** What goes wrong *)

(** A record that stops inside (here: after the first tree, without the dashes) passes, although a test is missing in it. *)
Theorem C77_cut_refuted : exists data, inline_check false two (Some data) = Ok (Some data) /\ (exists a b, data = FallLang.text_of "rule a" ++ a /\ record recorded_two = data ++ b /\ b <> []) /\ forall i, ~ occurs (FallLang.text_of "pub") data i.
Proof.
  exists (FallLang.text_of "rule a" ++ [10; 10] ++ first_tree). split; [vm_compute; reflexivity|]. split; [|apply occurs_none; vm_compute; reflexivity].
  exists ([10; 10] ++ first_tree), (skipn (length (FallLang.text_of "rule a" ++ [10; 10] ++ first_tree)) (record recorded_two)). split; [reflexivity|]. split; [vm_compute; reflexivity|intros E; vm_compute in E; discriminate E].
Qed.
Print Assumptions C77_cut_refuted.

(** A test with the line of dashes in it: a record that lacks all that comes behind its first part passes, whatever the trees are. *)
Theorem C77_dashes_refuted : exists grammar data, (exists tests, collect_tests (trim_str ascii_space) grammar = Ok tests /\ length tests = 2) /\ length data = 8 /\ inline_check false grammar (Some data) = Ok (Some data).
Proof.
  exists (FallLang.text_of "test r"" rule b " ++ dashes ++ FallLang.text_of " "" test r""pub"""), (FallLang.text_of " rule b "). split; [eexists; split; vm_compute; reflexivity|]. split; vm_compute; reflexivity.
Qed.
Print Assumptions C77_dashes_refuted.
