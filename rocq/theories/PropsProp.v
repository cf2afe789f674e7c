(** C88: the property tests of incremental parsing. *)
From Coq Require Import List Arith NArith Bool Lia Permutation.
From Verif Require Import Base BaseFacts TextModel TextSpec TextProofs EditModel LexModel LexSpec LexProofs ScanSpec ScanProofs TreeModel GrammarModel GrammarData ParserModel ConvertModel
  RegexModel RegexSpec RegexProofs RegexLang LexData NameData DumpModel NameModel PropsDump PropsRegex PropsRelex ReparseModel ReparseSpec PropsReparse FallTokens PropsCached
  HarnessModel HarnessSpec PropsHarness FallQuotes PropModel PropData PropSpec PropProofs PropTest.
Import ListNotations.
Open Scope list_scope.

(** * C88 *)

(** ** The edits *)

(** Whatever is drawn: the ranges are in order, and the copies go from left to right. *)
Theorem C88_drawn : forall cuts inserts, drawn cuts inserts -> well_drawn 0 (arb_text_edit cuts inserts).
Proof. exact arb_drawn. Qed.
Print Assumptions C88_drawn.

(** On every ASCII text such an edit applies. Its copies go from left to right inside the text, what it inserts are parts of the same
    text, and so every byte of the result is one of the text. *)
Theorem C88_edit : forall txt ops, ascii txt -> well_drawn 0 ops ->
  exists es new, as_text_edit ops (as_text txt) = Ok es /\ shuffles txt 0 es /\ apply es (as_text txt) = Ok new /\ incl new txt.
Proof.
  intros txt ops A W. destruct (edit_ok txt ops 0 A W) as (es & E & S). change (at_len (length txt) 0) with 0 in S. exists es, (result_of txt es). split; [exact E|]. split; [exact S|].
  split; [exact (apply_shuffle txt es [] 0 A S)|exact (proj1 (shuffle_incl _ _ _ S))].
Qed.
Print Assumptions C88_edit.

(** Every edit with one copy between two insertions and any copies after it can be drawn, with two cuts for each copy: the
    offsets of a text of less than 4 GB are all fractions of its length. *)
Theorem C88_covers : forall txt first second copies, ascii txt -> (N.of_nat (length txt) <= 4294967295)%N -> in_text txt first -> in_text txt second ->
  left_to_right 0 (map Copy copies) -> Forall (fun r => rend r <= length txt) copies ->
  exists cuts inserts, drawn cuts inserts /\ length cuts = 2 * length copies /\ length inserts = 2 /\
    as_text_edit (arb_text_edit cuts inserts) (as_text txt) = Ok (two_inserts txt first second copies).
Proof.
  intros txt first second copies A SH I1 I2 LR B. destruct (covers txt A SH first second copies I1 I2 LR B) as [D E]. do 2 eexists. split; [exact D|]. split; [|split; [reflexivity|exact E]].
  clear. induction copies as [|r rs IH]; [reflexivity|]. cbn [cuts_of flat_map app length]. unfold cuts_of in IH. lia.
Qed.
Print Assumptions C88_covers.

(** But no others: with at most two insertions, all copies but the first come after them. In particular no test ever appends
    to two copies, as deleting a word and typing at the end does. *)
Theorem C88_late : forall txt cuts inserts es, length inserts <= 2 -> as_text_edit (arb_text_edit cuts inserts) txt = Ok es ->
  forall pre b post, es = pre ++ Insert b :: post -> length (filter (fun e => match e with Copy _ => true | Insert _ => false end) pre) <= 1.
Proof.
  intros txt cuts inserts es LE H pre b post EQ. destruct (drawn_kinds cuts inserts LE) as (n & i & j & k & K & N & _). rewrite <- (kinds_kept _ _ _ H), EQ, map_app in K. cbn [map] in K.
  set (f := fun e : edit_op => match e with Copy _ => true | Insert _ => false end) in *.
  assert (FL : length (filter f pre) = length (filter (fun x => x) (map f pre))). { clear. induction pre as [|e pre IH]; [reflexivity|]. cbn [map filter]. destruct (f e); cbn [length]; lia. }
  rewrite FL. remember (map f pre) as l. clear - K N.
  assert (G : forall m l t, l ++ false :: t = repeat false m ++ repeat true k -> filter (fun x => x) l = []).
  { clear. induction m as [|m IH]; intros l t E; cbn [repeat app] in E.
    - exfalso. assert (J : In false (repeat true k)) by (rewrite <- E; apply in_or_app; right; left; reflexivity). apply repeat_spec in J. discriminate J.
    - destruct l as [|x l]; [reflexivity|]. cbn [app] in E. injection E as -> E. cbn [filter]. exact (IH l t E). }
  revert l K. induction i as [|i IH]; intros l K; cbn [repeat app] in K.
  - destruct n as [|[|n]]; [| |lia]; cbn [repeat app] in K; [rewrite (G j l _ K); cbn; lia|].
    destruct l as [|x l]; [discriminate K|]. cbn [app] in K. injection K as -> K. cbn [filter length]. rewrite (G j l _ K). cbn. lia.
  - destruct l as [|x l]; [cbn; lia|]. cbn [app] in K. injection K as -> K. cbn [filter]. exact (IH l K).
Qed.
Print Assumptions C88_late.

Theorem C88_reach_refuted : ~ forall txt es, ascii txt -> shuffles txt 0 es -> exists cuts inserts, length inserts <= 2 /\ as_text_edit (arb_text_edit cuts inserts) (as_text txt) = Ok es.
Proof.
  intros H. destruct (H [97; 98; 99] [Copy (mkRange 0 1); Copy (mkRange 2 3); Insert [98]]) as (cuts & inserts & LE & E).
  - repeat (apply Forall_cons; [lia|]). apply Forall_nil.
  - cbn. split; [lia|]. split; [lia|]. split; [lia|]. split; [lia|]. split; [lia|]. split; [lia|]. split; [|exact I]. exists 1, 2. split; [cbn; lia|reflexivity].
  - pose proof (C88_late _ _ _ _ LE E [Copy (mkRange 0 1); Copy (mkRange 2 3)] [98] [] eq_refl) as X. cbn in X. lia.
Qed.
Print Assumptions C88_reach_refuted.

(** ** Incremental parsing without double quotes *)

(** In texts of grammars without a double quote the condition of C73 is not needed: after any edits from left to right that insert no double quote,
    reparsing and parsing the new text return the same. *)
Theorem C88_quoteless : forall U err binder old history new, tables_ok U -> err_ok err -> (forall ty sp b, binder ty sp b <= length sp) ->
  let L := fall_shipped U err binder in
  utf8 old -> no_quote old -> Forall inserts_utf8 history -> Forall inserts_no_quote history -> Forall ascending history -> apply_all history old = Ok new ->
  exists start x fuel, forall more, parse_file L (fuel + more) old = Ok start /\ edit_all L (fuel + more) start history = Ok x /\ parse_file L (fuel + more) new = Ok x.
Proof. intros U err binder old history new T E BO L UO NQ IU IN AS AP. exact (quoteless_edits U err binder T E BO history old new UO NQ IU IN AS AP). Qed.
Print Assumptions C88_quoteless.

(** ** The test *)

(** [normalize] returns for every ASCII text, and adds nothing but line breaks. *)
Theorem C88_normalize : forall space txt, space [10] = true -> space [13] = true -> ascii txt -> exists n, normalize space txt = Ok n /\ incl n (10 :: txt).
Proof. intros space txt NL CR A. destruct (normalize_ok space NL CR txt A) as (n & N & _ & I). exists n. auto. Qed.
Print Assumptions C88_normalize.

(** The test cannot fail: started with any ASCII text without a double quote and with any number of edits that can be drawn, it returns. *)
Theorem C88_test : forall U err binder space txt edits, tables_ok U -> err_ok err -> (forall ty sp b, binder ty sp b <= length sp) -> space_ok space -> space [13] = true ->
  ascii txt -> no_quote txt -> Forall (well_drawn 0) edits ->
  exists fuel, forall more, property_test space (info_of fall_names) quoted (fall_shipped U err binder) (fuel + more) txt edits = Ok tt.
Proof. intros U err binder space txt edits T E BO SP CR A NQ W. exact (test_passes U err binder T E BO space SP CR txt edits A NQ W). Qed.
Print Assumptions C88_test.

(** And its success means something, for every language and all texts and edits: after each of the edits, the file reparsed since the start is printed like that of the
    text at that point, but for whitespace at both ends. *)
Theorem C88_detects : forall space info debug L fuel txt edits, property_test space info debug L fuel txt edits = Ok tt ->
  exists n start, normalize space txt = Ok n /\ parse_file L fuel n = Ok start /\ forall k, 1 <= k <= length edits ->
    exists history new y z d d', becomes n (firstn k edits) history new /\ edit_all L fuel start history = Ok y /\ parse_file L fuel new = Ok z /\
      dump_file_ws info debug (fst z) = Ok d /\ dump_file_ws info debug (fst y) = Ok d' /\ trim_str space d = trim_str space d'.
Proof.
  intros space info debug L fuel txt edits H. unfold property_test in H. apply bind_ok in H. destruct H as (n & N & H). apply bind_ok in H. destruct H as (start & P & H).
  exists n, start. split; [exact N|]. split; [exact P|]. exact (check_detects space info debug L fuel edits n start H).
Qed.
Print Assumptions C88_detects.

(** So the tests of the repository pass: both random ones whatever is drawn, and the three recorded ones. *)
Definition asciib (s : bytes) : bool := forallb (fun b => b <? 128) s.
Definition quoteb (s : bytes) : bool := existsb (fun b => b =? 34) s.
Lemma text_ok : forall s, asciib s = true -> quoteb s = false -> ascii s /\ no_quote s.
Proof.
  intros s A Q. split.
  - apply Forall_forall. intros b I. unfold asciib in A. rewrite forallb_forall in A. apply Nat.ltb_lt. exact (A b I).
  - intros I. assert (X : quoteb s = true) by (apply existsb_exists; exists 34; split; [exact I|reflexivity]). congruence.
Qed.
Fixpoint well_drawnb (lo : N) (ops : list arb_op) : bool :=
  match ops with
  | [] => true
  | (true, (s, e)) :: rest => ((lo <=? s) && (s <=? e) && (e <=? 4294967295))%N && well_drawnb e rest
  | (false, (s, e)) :: rest => ((s <=? e) && (e <=? 4294967295))%N && well_drawnb lo rest
  end.
Lemma well_drawnb_ok : forall ops lo, well_drawnb lo ops = true -> well_drawn lo ops.
Proof.
  induction ops as [|[[] [s e]] ops IH]; intros lo H; cbn [well_drawnb well_drawn] in *; [exact I| |]; rewrite !andb_true_iff, !N.leb_le in H; unfold unit_ok; intuition.
Qed.

Theorem C88_shipped : forall U err binder space, tables_ok U -> err_ok err -> (forall ty sp b, binder ty sp b <= length sp) -> space_ok space -> space [13] = true ->
  let passes txt edits := exists fuel, forall more, property_test space (info_of fall_names) quoted (fall_shipped U err binder) (fuel + more) txt edits = Ok tt in
  (forall edits, Forall (fun e => exists cuts inserts, drawn cuts inserts /\ e = arb_text_edit cuts inserts) edits -> passes simple_text edits /\ passes complex_text edits)
  /\ passes regression1_text regression1_edits /\ passes regression2_text regression2_edits /\ passes regression2_text regression3_edits.
Proof.
  intros U err binder space T E BO SP CR passes.
  assert (P : forall txt edits, asciib txt = true -> quoteb txt = false -> Forall (well_drawn 0) edits -> passes txt edits).
  { intros txt edits A Q W. destruct (text_ok txt A Q) as [A' Q']. exact (C88_test U err binder space txt edits T E BO SP CR A' Q' W). }
  assert (R : forall edits, forallb (well_drawnb 0) edits = true -> Forall (well_drawn 0) edits).
  { intros edits H. apply Forall_forall. intros e I. rewrite forallb_forall in H. apply well_drawnb_ok. exact (H e I). }
  split; [|split; [|split]]; try (apply P; [vm_compute; reflexivity|vm_compute; reflexivity|apply R; vm_compute; reflexivity]).
  intros edits D. assert (W : Forall (well_drawn 0) edits).
  { apply Forall_forall. intros e I. rewrite Forall_forall in D. destruct (D e I) as (cuts & inserts & DR & ->). exact (C88_drawn _ _ DR). }
  split; (apply P; [vm_compute; reflexivity|vm_compute; reflexivity|exact W]).
Qed.
Print Assumptions C88_shipped.

(** The texts were well chosen: with a double quote in the text the same test fails. In [r## r""##] the first two characters after [r##] are deleted; the raw string [r##""##] is not
    found by relexing. *)
Definition quoted_text : bytes := [114; 35; 35; 32; 114; 34; 34; 35; 35].
Definition two_copies : list N := [0; 1288490189; 2147483648; 4294967295]%N.
Definition real_test (txt : bytes) (edits : list (list arb_op)) : res unit := property_test ascii_space (info_of fall_names) quoted real_fall 300 txt edits.
Theorem C88_quotes_refuted : ascii quoted_text /\ drawn two_copies [] /\ real_test quoted_text [arb_text_edit two_copies []] = Panic /\
  as_text_edit (arb_text_edit two_copies []) (as_text (quoted_text ++ [10])) = Ok [Copy (mkRange 0 3); Copy (mkRange 5 10)].
Proof.
  split; [repeat (apply Forall_cons; [lia|]); apply Forall_nil|]. split; [split; [repeat (apply Forall_cons; [vm_compute; discriminate|]); apply Forall_nil|constructor]|]. split; vm_compute; reflexivity.
Qed.
Print Assumptions C88_quotes_refuted.

(** Outside ASCII the edits may cut a character in two: then the test fails although nothing is wrong with the parser. *)
Theorem C88_chars_refuted : utf8 [195; 169] /\ drawn [0; 2147483647]%N [] /\ real_test [195; 169] [arb_text_edit [0; 2147483647]%N []] = Panic
  /\ drawn [] [Some (0, 2147483647)%N] /\ as_text_edit (arb_text_edit [] [Some (0, 2147483647)%N]) (as_text [195; 169; 10]) = Panic.
Proof.
  split. { exists [[195; 169]]. split; [|reflexivity]. repeat (apply Forall_cons || apply Forall_nil). split; [split; [reflexivity|repeat constructor]|intros x Q; injection Q as <-; reflexivity]. }
  split; [split; [repeat (apply Forall_cons; [vm_compute; discriminate|]); apply Forall_nil|constructor]|]. split; [vm_compute; reflexivity|].
  split; [|vm_compute; reflexivity]. split; [constructor|]. constructor; [|constructor]. intros p Q. injection Q as <-. split; vm_compute; discriminate.
Qed.
Print Assumptions C88_chars_refuted.

(** ** Cases *)

Definition some_cuts : list N := [4000000000; 100; 3000000000; 1500000000; 7]%N.
Definition some_inserts : list (option (N * N)) := [None; Some (4294967295, 2147483648)%N].

(** Five cuts in any order: two copies, the last one is dropped; nothing before the first, a part of the text between them. *)
Example C88_drawn_case : drawn some_cuts some_inserts /\ arb_text_edit some_cuts some_inserts =
  [(true, (7, 100)%N); (false, (2147483648, 4294967295)%N); (true, (1500000000, 3000000000)%N)] /\
  as_text_edit (arb_text_edit some_cuts some_inserts) (as_text [97; 98; 99; 100; 101; 102]) = Ok [Copy (mkRange 0 0); Insert [100; 101; 102]; Copy (mkRange 2 4)].
Proof.
  split; [|split; vm_compute; reflexivity]. split; [repeat (apply Forall_cons; [vm_compute; discriminate|]); apply Forall_nil|].
  constructor; [intros p Q; discriminate Q|]. constructor; [|constructor]. intros p Q. injection Q as <-. split; vm_compute; discriminate.
Qed.

(** More insertions than copies: the rest of them follows. With no insertions only the copies remain. *)
Example C88_more_case : arb_text_edit [1; 2]%N [Some (3, 4)%N; Some (6, 5)%N] = [(false, (3, 4)%N); (true, (1, 2)%N); (false, (5, 6)%N)] /\
  arb_text_edit [4; 3; 2; 1]%N [] = [(true, (1, 2)%N); (true, (3, 4)%N)] /\ arb_text_edit [9]%N [Some (1, 1)%N; None] = [(false, (1, 1)%N)].
Proof. split; [|split]; vm_compute; reflexivity. Qed.

Example C88_covers_case : in_text [97; 98; 99] (Some (mkRange 1 3)) /\ left_to_right 0 (map Copy [mkRange 0 1; mkRange 2 3]) /\
  two_inserts [97; 98; 99] (Some (mkRange 1 3)) None [mkRange 0 1; mkRange 2 3] = [Insert [98; 99]; Copy (mkRange 0 1); Copy (mkRange 2 3)].
Proof. split; [intros r Q; injection Q as <-; cbn; lia|]. split; [cbn; lia|reflexivity]. Qed.

(** Blank lines around the text and the common indentation go; a carriage return does too. *)
Example C88_normalize_case : normalize ascii_space [10; 32; 10; 32; 32; 97; 13; 10; 32; 10; 32; 32; 32; 98; 10; 32] = Ok [97; 10; 10; 32; 98; 10]
  /\ normalize ascii_space [32; 10] = Ok [] /\ normalize ascii_space regression1_text = Ok [116; 111; 107; 101; 110; 105; 122; 101; 114; 32; 123; 32; 125; 10].
Proof. split; [|split]; vm_compute; reflexivity. Qed.

Example C88_test_case : tables_ok ascii_U /\ err_ok one_char /\ space_ok ascii_space /\ ascii_space [13] = true /\ ascii regression1_text /\ no_quote regression1_text /\
  Forall (well_drawn 0) regression1_edits /\ real_test regression1_text regression1_edits = Ok tt.
Proof.
  split; [exact ascii_U_ok|]. split; [exact one_char_ok|]. split; [exact ascii_space_ok|]. split; [reflexivity|]. destruct (text_ok regression1_text eq_refl eq_refl) as [A Q]. split; [exact A|]. split; [exact Q|].
  split; [|vm_compute; reflexivity]. repeat (apply Forall_cons; [apply well_drawnb_ok; vm_compute; reflexivity|]). apply Forall_nil.
Qed.

(** The texts of C73's case have no double quotes. *)
Example C88_quoteless_case : utf8 two_rules /\ no_quote two_rules /\ Forall inserts_utf8 [second_rule] /\ Forall inserts_no_quote [second_rule] /\ Forall ascending [second_rule] /\
  exists new, apply_all [second_rule] two_rules = Ok new.
Proof.
  destruct C73_case as (_ & _ & UO & _ & IU & AS & _). split; [exact UO|]. split; [exact (proj2 (text_ok two_rules eq_refl eq_refl))|]. split; [constructor; [exact IU|constructor]|].
  split; [|split; [constructor; [exact AS|constructor]|eexists; vm_compute; reflexivity]]. constructor; [|constructor]. constructor; [exact I|]. constructor; [|constructor; [exact I|constructor]]. intros [H|[H|[]]]; discriminate H.
Qed.
