(** C75: formatting, edits and selections in the editor. *)
From Coq Require Import List Arith NArith Bool Lia.
From Verif Require Import Base BaseFacts TextModel TextSpec TextProofs EditModel LexModel LexSpec ScanSpec ScanProofs TreeModel TreeSpec FileEditModel FileEditSpec FileEditProofs
  GrammarModel GrammarData ParserModel ConvertModel ReparseModel AnalysisModel EditorModel EditorSpec PropsEditor PropsCheck PropsComplete PropsNest FormatModel FormatSpec PropsFormat
  RegexModel RegexSpec RegexProofs LexData FallLang PropsRegex PropsRelex PropsCached SessionModel SessionSpec SessionProofs PropsSession ClientModel ClientSpec ClientProofs.
Import ListNotations.
Open Scope list_scope.

(** Every edit of the tree (all actions and formatters make such edits): the edits the editor gets turn an ASCII document into
    the text the edit of the tree gives. *)
Theorem C75_edits : forall d f T e, ascii_document d -> f_text f = concat d -> wf_file f T -> char_tree (f_text f) T ->
  exists ops js, into_text_edit f e = Ok ops /\ edits_of d ops = Ok js /\ after_edits d js = edit_result f T e.
Proof.
  intros d f T e AS TX WF CT. destruct (file_edit_ok f T e WF CT) as (ops & E & AP & O & A). rewrite TX in O, A.
  destruct (client_ok d ops AS O A) as (js & EJ & AJ). exists ops, js. split; [exact E|]. split; [exact EJ|]. rewrite TX in AP. unfold contents in AJ. congruence.
Qed.
Print Assumptions C75_edits.

(** Ranges in an ASCII document are not changed on the way to the editor. *)
Theorem C75_ranges : forall d r, ascii_document d -> rstart r <= rend r -> rend r <= length (concat d) ->
  to_vs_range d r = (rstart r, rend r) /\ length (concat (before d (rstart r))) = rstart r /\ length (concat (before d (rend r))) = rend r.
Proof.
  intros d r AS P LE. split; [exact (range_ascii d r AS P LE)|]. split; [exact (before_length d _ AS (Nat.le_trans _ _ _ P LE))|exact (before_length d _ AS LE)].
Qed.
Print Assumptions C75_ranges.

Lemma asked : forall U err binder known tx evs u active, tables_ok U -> err_ok err -> (forall ty sp b, binder ty sp b <= length sp) ->
  let L := fall_shipped U err binder in
  (forall w, characters (tx w)) -> plain (no_bare_raw (l_lexer L)) known tx evs -> known u = true ->
  exists fuel, forall more, exists s s', handle_all L (Some FALL_FILE) known (fuel + more) (mkSession tx (fun _ => None)) evs = Ok s /\
    texts s' = current tx evs /\ exists x, get_file L (Some FALL_FILE) known (fuel + more) active s u = Ok (s', Some x) /\ parse_file L (fuel + more) (concat (current tx evs u)) = Ok x.
Proof.
  intros U err binder known tx evs u active TO E BO L C PL K.
  destruct (session_texts L (Some FALL_FILE) known (no_bare_raw (l_lexer L)) (fall_parses U err binder TO E BO) (fall_rooted U err binder TO E BO)
    (fun fuel0 fuel old f inc ops new x UO FI IU AC P AP PN => C73_total U err binder fuel0 fuel old f inc ops new x TO E UO FI IU AC P AP PN) tx evs u active C PL) as (fuel & H).
  exists fuel. intros more. destruct (H more) as (s & s' & R & _ & T & G). rewrite K in G. exists s, s'. auto.
Qed.

(** Formatting a grammar in the editor, after any events: the document keeps its tokens and its whitespace with line breaks, and
    it becomes the text of the formatted tree. *)
Theorem C75_format : forall U err binder known tx evs u active, tables_ok U -> err_ok err -> (forall ty sp b, binder ty sp b <= length sp) ->
  let L := fall_shipped U err binder in
  (forall w, characters (tx w)) -> plain (no_bare_raw (l_lexer L)) known tx evs -> known u = true -> ascii_document (current tx evs u) ->
  exists fuel, forall more, exists s s' js f inc T T',
    handle_all L (Some FALL_FILE) known (fuel + more) (mkSession tx (fun _ => None)) evs = Ok s /\
    format_document L (Some FALL_FILE) known (fuel + more) active s u = Ok (s', js) /\
    parse_file L (fuel + more) (concat (current tx evs u)) = Ok (f, inc) /\ wf_file f T /\
    after_edits (current tx evs u) js = ltext T' /\ T' = formatted (label (f_text f) T 0) /\
    filter solid (lleaves T') = filter solid (lleaves (label (f_text f) T 0)) /\
    ltext T' = flat_map snd (lleaves T') /\ concat (current tx evs u) = flat_map snd (lleaves (label (f_text f) T 0)).
Proof.
  intros U err binder known tx evs u active TO E BO L C PL K AS.
  pose proof (asked U err binder known tx evs u active TO E BO C PL K) as H. cbv zeta in H. fold L in H.
  destruct H as (fuel & H). exists fuel. intros more. destruct (H more) as (s & s' & R & TS & (f & inc) & G & P).
  assert (CU : utf8 (concat (current tx evs u))) by (apply characters_utf8; apply current_characters with (fine := no_bare_raw (l_lexer L)) (known := known); assumption).
  destruct (C71_fall U longest err binder TO longest_picks E BO) as (SF & _ & WH). destruct SF as [G1 W1 P1 B1 _ I1].
  destruct (parsed_ws L (fuel + more) _ f inc G1 W1 P1 (fun b r X => blank_is b (B1 b r X)) I1 P (WH _ CU)) as (T & WF & TX & CT & WL).
  destruct (C37_content f T WF CT WL) as (ops & T' & RF & AP & LT & FS & OLD). destruct (C37_exact f T WF CT) as (ops2 & RF2 & AP2).
  assert (ops2 = ops) by congruence. subst ops2.
  pose proof RF as RF'. unfold reformat, reformat_file in RF'. destruct (reformat_node (length (f_nodes f)) f fall_spacing F_WHITESPACE TreeModel.root fe_new) as [e| |] eqn:ER; try discriminate RF'. cbn [bind] in RF'.
  destruct (C75_edits (current tx evs u) f T e AS TX WF CT) as (ops3 & js & IT & EJ & AJ). assert (ops3 = ops) by congruence. subst ops3.
  destruct (file_edit_ok f T e WF CT) as (ops4 & IT4 & AP4 & _). assert (ops4 = ops) by congruence. subst ops4.
  exists s, s', js, f, inc, T, (formatted (label (f_text f) T 0)). split; [exact R|]. split; [|split; [exact P|split; [exact WF|]]].
  - unfold format_document. rewrite G. cbn [bind fst]. rewrite RF. cbn [bind]. rewrite TS, EJ. reflexivity.
  - split; [congruence|]. split; [reflexivity|]. split; [apply FormatProofs.formatted_solid; exact WL|]. split; [apply leaves_text|]. rewrite OLD, TX. reflexivity.
Qed.
Print Assumptions C75_format.

(** "Extend selection" in the editor, after any events: the new selection is the smallest node that is larger than the old one;
    there is none only when everything is selected. *)
Theorem C75_selection : forall U err binder known tx evs u active a b, tables_ok U -> err_ok err -> (forall ty sp b, binder ty sp b <= length sp) ->
  let L := fall_shipped U err binder in
  (forall w, characters (tx w)) -> plain (no_bare_raw (l_lexer L)) known tx evs -> known u = true -> ascii_document (current tx evs u) ->
  a < b -> b <= length (concat (current tx evs u)) ->
  exists fuel, forall more, exists s s' sel f inc T,
    handle_all L (Some FALL_FILE) known (fuel + more) (mkSession tx (fun _ => None)) evs = Ok s /\
    extend L (Some FALL_FILE) known (fuel + more) active s u (a, b) = Ok (s', sel) /\
    parse_file L (fuel + more) (concat (current tx evs u)) = Ok (f, inc) /\ wf_file f T /\
    (sel = None <-> (a, b) = (0, length (concat (current tx evs u)))) /\
    (forall x y, sel = Some (x, y) -> strictly_contains (mkRange x y) (mkRange a b) /\ (exists n, has_range T n (mkRange x y)) /\
       forall n rn, has_range T n rn -> strictly_contains rn (mkRange a b) -> contains_range rn (mkRange x y)).
Proof.
  intros U err binder known tx evs u active a b TO E BO L C PL K AS AB BL. pose proof (asked U err binder known tx evs u active TO E BO C PL K) as H. cbv zeta in H. fold L in H.
  destruct H as (fuel & H). exists fuel. intros more. destruct (H more) as (s & s' & R & TS & (f & inc) & G & P).
  assert (CU : utf8 (concat (current tx evs u))) by (apply characters_utf8; apply current_characters with (fine := no_bare_raw (l_lexer L)) (known := known); assumption).
  destruct (C71_fall U longest err binder TO longest_picks E BO) as (SF & _ & WH). destruct SF as [G1 W1 P1 B1 _ I1].
  destruct (parsed_ws L (fuel + more) _ f inc G1 W1 P1 (fun b r X => blank_is b (B1 b r X)) I1 P (WH _ CU)) as (T & WF & TX & CT & WL).
  destruct (C15_extend f T (l_ws L) (mkRange a b) WF AB ltac:(cbn; rewrite TX; exact BL)) as (o & EX & NO & SO). rewrite TX in NO.
  assert (RO : forall r, o = Some r -> to_vs_range (current tx evs u) r = (rstart r, rend r)).
  { intros r EO. destruct (SO r EO) as (_ & (n & HR) & _). destruct (has_range_in T n r HR) as (P1' & P2'). apply range_ascii; [exact AS|exact P1'|]. rewrite (proj2 WF), TX in P2'. exact P2'. }
  exists s, s', (option_map (fun r => (rstart r, rend r)) o), f, inc, T. split; [exact R|]. split.
  { unfold extend. rewrite G. cbn [bind fst]. unfold from_vs_range. cbn [fst snd]. rewrite EX. cbn [bind]. rewrite TS. destruct o as [r|]; cbn [option_map]; [rewrite (RO r eq_refl)|]; reflexivity. }
  split; [exact P|]. split; [exact WF|]. split.
  - destruct o as [r|]; cbn [option_map]; split; intros X; try discriminate X; try reflexivity.
    + injection X as -> ->. discriminate (proj2 NO eq_refl).
    + pose proof (proj1 NO eq_refl) as Y. injection Y as -> ->. reflexivity.
  - intros x y X. destruct o as [[x' y']|]; [|discriminate X]. cbn in X. injection X as -> ->. exact (SO _ eq_refl).
Qed.
Print Assumptions C75_selection.

(** ** Cases *)

(** The first document is opened with "rule a{b|}", then "c" is typed after "|". *)
Definition typing_ascii : list (event * option nat) :=
  [(Opened 0 (chars_of [114; 117; 108; 101; 32; 97; 123; 98; 124; 125]), Some 0); (Asked 0, Some 0); (Changed 0 9 9 [[99]], Some 0)].

Example C75_case : tables_ok ascii_U /\ err_ok one_char /\ (forall w, characters ((fun _ : nat => []) w)) /\
  plain (no_bare_raw (l_lexer real_fall)) (Nat.eqb 0) (fun _ => []) typing_ascii /\ ascii_document (current (fun _ => []) typing_ascii 0) /\
  exists s s' js s'' sel, handle_all real_fall (Some FALL_FILE) (Nat.eqb 0) 300 (mkSession (fun _ => []) (fun _ => None)) typing_ascii = Ok s /\
    format_document real_fall (Some FALL_FILE) (Nat.eqb 0) 300 (Some 0) s 0 = Ok (s', js) /\
    after_edits (current (fun _ => []) typing_ascii 0) js = [114; 117; 108; 101; 32; 97; 123; 98; 32; 124; 32; 99; 125] /\
    extend real_fall (Some FALL_FILE) (Nat.eqb 0) 300 (Some 0) s 0 (9, 10) = Ok (s'', sel) /\ sel = Some (6, 11).
Proof.
  split; [exact ascii_U_ok|]. split; [exact one_char_ok|]. split; [intros w; apply Forall_nil|]. split.
  { unfold typing_ascii. cbn [plain]. split; [are_characters|]. split; [exact I|].
    split; [|exact I]. cbn. split; [lia|]. split; [are_characters|]. intros _. split; [are_ascii|no_raw]. }
  split. { unfold ascii_document. match goal with |- Forall _ ?l => let v := eval vm_compute in l in change l with v end. repeat (apply Forall_cons; [reflexivity|]). apply Forall_nil. }
  do 5 eexists. split; [vm_compute; reflexivity|]. split; [vm_compute; reflexivity|]. split; [vm_compute; reflexivity|]. split; [vm_compute; reflexivity|]. reflexivity.
Qed.

(** ** Offsets *)

(** With an accented letter before it, a range the backend sends is shown elsewhere, here as an empty range. *)
Theorem C75_ranges_refuted : exists d r, characters d /\ rstart r < rend r /\ rend r <= length (concat d) /\ aligned (concat d) (rstart r) /\ aligned (concat d) (rend r) /\
  fst (to_vs_range d r) = snd (to_vs_range d r).
Proof.
  exists [[195; 169]; [120]], (mkRange 2 3). split; [are_characters|]. split; [cbn; lia|]. split; [cbn; lia|].
  split; [apply boundary_spec; reflexivity|]. split; [apply boundary_spec; reflexivity|]. reflexivity.
Qed.
Print Assumptions C75_ranges_refuted.

(** Formatting a rule with the alternatives e-acute (a string) and bb: the spaces land elsewhere than the formatter meant, and one of them cuts
    the name bb in two. *)
Theorem C75_format_refuted : exists d s s' js f inc ops, characters d /\
  handle_all real_fall (Some FALL_FILE) (Nat.eqb 0) 300 (mkSession (fun _ => []) (fun _ => None)) [(Opened 0 d, Some 0)] = Ok s /\
  format_document real_fall (Some FALL_FILE) (Nat.eqb 0) 300 (Some 0) s 0 = Ok (s', js) /\
  parse_file real_fall 300 (concat d) = Ok (f, inc) /\ reformat f = Ok ops /\
  concat d = [114; 117; 108; 101; 32; 97; 123; 39; 195; 169; 39; 124; 98; 98; 125] /\
  apply ops (as_text (concat d)) = Ok [114; 117; 108; 101; 32; 97; 123; 39; 195; 169; 39; 32; 124; 32; 98; 98; 125] /\
  after_edits d js = [114; 117; 108; 101; 32; 97; 123; 39; 195; 169; 39; 124; 32; 98; 32; 98; 125].
Proof.
  exists (chars_of [114; 117; 108; 101; 32; 97; 123; 39] ++ [[195; 169]] ++ chars_of [39; 124; 98; 98; 125]). do 6 eexists. split; [are_characters|].
  split; [vm_compute; reflexivity|]. split; [vm_compute; reflexivity|]. split; [vm_compute; reflexivity|]. split; [vm_compute; reflexivity|].
  split; [reflexivity|]. split; vm_compute; reflexivity.
Qed.
Print Assumptions C75_format_refuted.

(** ** Everything selected *)

(** The command does not expect that there is no larger selection: when everything is selected it fails, instead of leaving the
    selection as it is. *)
Theorem C75_everything_refuted : exists d s, ascii_document d /\ d <> [] /\
  handle_all real_fall (Some FALL_FILE) (Nat.eqb 0) 300 (mkSession (fun _ => []) (fun _ => None)) [(Opened 0 d, Some 0)] = Ok s /\
  extend_all real_fall (Some FALL_FILE) (Nat.eqb 0) 300 (Some 0) s 0 [(6, 9)] = Ok [(0, length d)] /\
  extend_all real_fall (Some FALL_FILE) (Nat.eqb 0) 300 (Some 0) s 0 [(0, length d)] = Panic.
Proof.
  exists (chars_of [114; 117; 108; 101; 32; 97; 123; 98; 125]). eexists. split; [unfold ascii_document; cbn; repeat (apply Forall_cons; [reflexivity|]); apply Forall_nil|].
  split; [discriminate|]. split; [vm_compute; reflexivity|]. split; vm_compute; reflexivity.
Qed.
Print Assumptions C75_everything_refuted.
