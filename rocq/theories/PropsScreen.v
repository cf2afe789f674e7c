(** C82: what the editor shows. *)
From Coq Require Import List Arith NArith Bool Lia String.
From Verif Require Import Base BaseFacts TextModel TextSpec EditModel LexModel LexSpec ScanSpec TreeModel TreeSpec TreeProofs SearchModel FileEditSpec EditorModel
  GrammarModel GrammarData ParserModel ConvertModel ReparseModel DbModel AnalysisModel AnalysisSpec AnalysisFacts PropsAnalysis TraversalProofs RefModel RefSpec RefProofs PropsCheck PropsComplete PropsNest
  FallEditModel FallHlSpec PropsFallEdit RegexModel RegexSpec RegexProofs LexData FallLang PropsRegex PropsRelex PropsCached SessionModel SessionSpec SessionProofs PropsSession
  ClientModel ClientSpec ClientProofs ScreenModel ScreenSpec ScreenProofs.
Import ListNotations.
Open Scope list_scope.
Open Scope nat_scope.

Definition nothing : screen := mkScreen (fun _ _ => []) (fun _ => []).

(** After any events the active editor, if its document is a grammar, shows what the backend says about the document's current text: if highlighting
    gives an answer then exactly that answer, and then the problems listed are those of that text and of no other document. [a0] is the document
    active when the plugin starts. *)
Theorem C82_current : forall U err binder known ask check tx a0 evs a, tables_ok U -> err_ok err -> (forall ty sp b, binder ty sp b <= List.length sp) ->
  let L := fall_shipped U err binder in let paint := fun f => fall_highlight f (ask f) in
  (forall w, characters (tx w)) -> plain (no_bare_raw (l_lexer L)) known tx evs ->
  steady a0 evs -> Exists (fun ev => concerns known (fst ev)) evs -> active_after a0 evs = Some a -> known a = true ->
  exists fuel, forall more, exists s scr f inc,
    drawing L (Some FALL_FILE) known (fuel + more) paint check 0 (mkSession tx (fun _ => None), nothing) evs = Ok (s, scr) /\
    parse_file L (fuel + more) (List.concat (current tx evs a)) = Ok (f, inc) /\
    forall hs, paint f = Ok hs ->
      (forall t, colours scr a t = map (fun h => to_vs_range (current tx evs a) (fst h)) (filter (fun h => same_tag (snd h) t) hs)) /\
      (exists m, problems scr a = match check m f with Ok ds => map (to_problem (current tx evs a)) ds | _ => [] end) /\
      forall w, w <> a -> problems scr w = [].
Proof.
  intros U err binder known ask check tx a0 evs a TO E BO L paint C PL ST EX AA K.
  destruct (handle_all_ok L (Some FALL_FILE) known (no_bare_raw (l_lexer L)) (fall_parses U err binder TO E BO) (fall_rooted U err binder TO E BO)
    (fun fuel0 fuel old f inc ops new x UO FI IU AC P AP PN => C73_total U err binder fuel0 fuel old f inc ops new x TO E UO FI IU AC P AP PN) evs tx C PL) as (fuel & H).
  exists fuel. intros more. destruct (H more (mkSession tx (fun _ => None)) eq_refl) as (s & R & TS & F); [split; [exact C|intros w z Z; discriminate Z]|].
  destruct (drawing_session L (Some FALL_FILE) known (fuel + more) paint check evs _ _ nothing 0 R) as (scr & D).
  destruct (drawing_right _ _ _ _ _ _ _ _ a0 _ _ _ _ D ST) as (RI & LO).
  { intros b x hs _ _ X. discriminate X. }
  { intros (u & X). exfalso. apply X. reflexivity. }
  specialize (LO (or_intror EX)). rewrite AA in RI, LO. specialize (LO a eq_refl K). destruct (docs s a) as [[f inc]|] eqn:DA; [|contradiction].
  destruct (proj2 F a _ DA) as (_ & P). rewrite TS in P. exists s, scr, f, inc. split; [exact D|]. split; [exact P|].
  intros hs PH. destruct (RI a _ hs eq_refl K DA PH) as (S1 & S2 & S3). rewrite TS in S1, S2. split; [exact S1|]. split; [exact S2|exact S3].
Qed.
Print Assumptions C82_current.

(** If the text is ASCII and parses without errors: the ranges in each colour are exactly those of the tokens and names that have that colour
    (C59), and the problems listed are exactly the diagnostics of the text (C36, C39, C45 to C48), with their ranges, severities and messages. *)
Theorem C82_screen : forall U err binder known ask check tx a0 evs a, tables_ok U -> err_ok err -> (forall ty sp b, binder ty sp b <= List.length sp) ->
  let L := fall_shipped U err binder in let paint := fun f => fall_highlight f (ask f) in
  (forall w, characters (tx w)) -> plain (no_bare_raw (l_lexer L)) known tx evs ->
  steady a0 evs -> Exists (fun ev => concerns known (fst ev)) evs -> active_after a0 evs = Some a -> known a = true ->
  ascii_document (current tx evs a) ->
  exists fuel, forall more, exists s scr f inc,
    drawing L (Some FALL_FILE) known (fuel + more) paint check 0 (mkSession tx (fun _ => None), nothing) evs = Ok (s, scr) /\
    parse_file L (fuel + more) (List.concat (current tx evs a)) = Ok (f, inc) /\
    (no_error_nodes f -> honest f (ask f) -> (forall m, exists ds out, check m f = Ok out /\ collect_returns f ds out) ->
      exists l mss ds out, subtree (f_nodes f) root = Ok l /\ Forall2 (colors f) l mss /\ (forall t, of_tag (List.concat mss) t (colours scr a t)) /\
        collect_returns f ds out /\ Forall2 listed out (problems scr a) /\ forall w, w <> a -> problems scr w = []).
Proof.
  intros U err binder known ask check tx a0 evs a TO E BO L paint C PL ST EX AA K AS.
  destruct (C82_current U err binder known ask check tx a0 evs a TO E BO C PL ST EX AA K) as (fuel & H). exists fuel. intros more.
  destruct (H more) as (s & scr & f & inc & D & P & Q). exists s, scr, f, inc. split; [exact D|]. split; [exact P|]. intros NE HON CH.
  assert (CU : utf8 (List.concat (current tx evs a))) by (apply characters_utf8; apply current_characters with (fine := no_bare_raw (l_lexer L)) (known := known); assumption).
  destruct (C71_fall U longest err binder TO longest_picks E BO) as (SF & YT & WH).
  assert (G : grammar_file L (List.concat (current tx evs a)) f) by (split; [exact SF|split; [exact YT|split; [exact (WH _ CU)|exists (fuel + more), inc; exact P]]]).
  destruct (C52_complete L (fuel + more) _ f inc SF (WH _ CU) P NE) as (T & WF & TX & CT & CO & _).
  destruct (C59_highlight L _ f (ask f) G NE HON) as (l & mss & SU & CS & EH). destruct (Q _ EH) as (S1 & (m & S2) & S3). destruct (CH m) as (ds & out & EC & CR). rewrite EC in S2.
  exists l, mss, ds, out. split; [exact SU|]. split; [exact CS|]. split; [|split; [exact CR|split; [|exact S3]]].
  - intros t. rewrite S1. apply by_tag_ascii; [exact AS|]. intros r u J. rewrite <- TX.
    assert (VL : Forall (valid f) l).
    { pose proof (subtree_ok _ T (proj1 WF) T 0 0 None (At_root T)) as SU'. unfold root in SU. rewrite SU' in SU. injection SU as <-. apply Forall_forall. intros n IN. apply post_in in IN.
      unfold valid. pose proof (proj1 (proj1 WF)) as LN. rewrite LN. lia. }
    clear - CS VL J NE WF. induction CS as [|n ms l mss CN CS IH]; [destruct J|]. cbn [List.concat] in J. inversion VL as [|? ? V1 V2]; subst. apply in_app_or in J. destruct J as [J|J]; [|exact (IH J V2)].
    exact (colors_fit f T n ms r u WF NE CN V1 J).
  - rewrite S2. apply to_problem_ascii; [exact AS|]. intros x J. rewrite <- TX. destruct (C36_collect f T ds out WF CT CO CR) as (_ & (ks & dss & _ & _ & F & PM) & _).
    apply (Permutation.Permutation_in _ PM) in J. clear - F J WF. induction F as [|k d ks dss (v & SV) F IH]; [destruct J|]. cbn [List.concat] in J. apply in_app_or in J. destruct J as [J|J]; [|exact (IH J)].
    exact (says_fit f T k v d x WF SV J).
Qed.
Print Assumptions C82_screen.

(** ** Case *)

Definition direct_check (moment : nat) (f : file) : res (list diagnostic) :=
  match lone_result f [] 3000 with Some ds => Ok (sort_diags ds) | None => OutOfFuel end.
Definition direct_paint (f : file) : res (list (range * hl_tag)) := fall_highlight f (direct 4 f).
Definition screen_after (known : nat -> bool) (evs : list (event * option nat)) : res (session * screen) :=
  drawing real_fall (Some FALL_FILE) known 300 direct_paint direct_check 0 (mkSession (fun _ => []) (fun _ => None), nothing) evs.

(** Two grammars are opened, "rule a{b}" and "rule c{}"; the editor of the second is shown, then that of the first, and " b" is typed after its "b". *)
Definition looking : list (event * option nat) :=
  [(Opened 0 (chars_of [114; 117; 108; 101; 32; 97; 123; 98; 125]), None); (Opened 1 (chars_of [114; 117; 108; 101; 32; 99; 123; 125]), None); (Switched, Some 1);
   (Switched, Some 0); (Asked 1, Some 0); (Changed 0 8 8 [[32]; [98]], Some 0)].

Example C82_case : tables_ok ascii_U /\ err_ok one_char /\ (forall w, characters ((fun _ : nat => []) w)) /\
  plain (no_bare_raw (l_lexer real_fall)) (fun u => u <? 2) (fun _ => []) looking /\ steady None looking /\
  Exists (fun ev => concerns (fun u => u <? 2) (fst ev)) looking /\ active_after None looking = Some 0 /\ ascii_document (current (fun _ => []) looking 0) /\
  (exists f inc, parse_file real_fall 300 (List.concat (current (fun _ => []) looking 0)) = Ok (f, inc) /\ no_error_nodes f /\ honest f (direct 4 f) /\
     forall m, exists ds out, direct_check m f = Ok out /\ collect_returns f ds out) /\
  exists s scr, screen_after (fun u => u <? 2) looking = Ok (s, scr) /\
    colours scr 0 HKeyword = [(0, 4)] /\ colours scr 0 HFunction = [(5, 6)] /\ colours scr 0 HLiteral = [] /\
    problems scr 0 = [((7, 8), true, MUnresolvedReference); ((9, 10), true, MUnresolvedReference)] /\ problems scr 1 = [] /\ colours scr 1 HFunction = [(5, 6)].
Proof.
  split; [exact ascii_U_ok|]. split; [exact one_char_ok|]. split; [intros w; apply Forall_nil|]. split.
  { unfold looking. cbn [plain]. split; [are_characters|]. split; [are_characters|]. repeat (split; [exact I|]).
    split; [|exact I]. cbn. split; [lia|]. split; [are_characters|]. intros _. split; [are_ascii|no_raw]. }
  split; [cbn; tauto|]. split; [apply Exists_cons_hd; reflexivity|]. split; [reflexivity|].
  split. { unfold ascii_document. match goal with |- Forall _ ?l => let v := eval vm_compute in l in change l with v end. repeat (apply Forall_cons; [reflexivity|]). apply Forall_nil. }
  split.
  { destruct (parse_file real_fall 300 (List.concat (current (fun _ => []) looking 0))) as [[f inc]| |] eqn:P; [|vm_compute in P; discriminate P..].
    exists f, inc. split; [reflexivity|].
    assert (NE : no_error_nodes f).
    { apply no_error_nodes_check. assert (X : (match parse_file real_fall 300 (List.concat (current (fun _ => []) looking 0)) with Ok (f, _) => no_error_nodes_b f | _ => false end) = true) by (vm_compute; reflexivity). rewrite P in X. exact X. }
    split; [exact NE|].
    destruct (C71_fall ascii_U longest one_char (fun _ _ _ => 0) ascii_U_ok longest_picks one_char_ok (fun _ _ _ => Nat.le_0_l _)) as (SF & YT & WH).
    assert (CU : utf8 (List.concat (current (fun _ => []) looking 0))).
    { apply characters_utf8. unfold characters. match goal with |- Forall _ ?l => let v := eval vm_compute in l in change l with v end. are_characters. }
    destruct (C52_complete real_fall 300 _ f inc SF (WH _ CU) P NE) as (T & WF & _ & CT & CO & _).
    split; [exact (direct_honest f T WF CT CO)|]. intros m.
    assert (X : (match parse_file real_fall 300 (List.concat (current (fun _ => []) looking 0)) with Ok (f, _) => match lone_result f [] 3000 with Some _ => true | None => false end | _ => false end) = true) by (vm_compute; reflexivity).
    rewrite P in X. unfold direct_check. destruct (lone_result f [] 3000) as [ds|] eqn:LR; [|discriminate X].
    destruct (lone_case f T [] 3000 (sort_diags ds) WF (fun k (J : In k []) => match J with end) ltac:(rewrite LR; reflexivity)) as (ds' & CR). exists ds', (sort_diags ds). auto. }
  do 2 eexists. split; [vm_compute; reflexivity|]. repeat (split; [reflexivity|]). reflexivity.
Qed.

(** ** Stale answers *)

(** A text with errors: highlighting panics (C59), and the editor goes on showing what it showed before. Here "rule a{b}" was replaced by a text
    whose first three letters are a keyword; the colours are those of the old text, and so is the unresolved reference listed. *)
Definition erring : document := chars_of (FallLang.text_of "ast { node a { x y } class").
Theorem C82_with_errors_refuted : exists evs s scr,
  plain (no_bare_raw (l_lexer real_fall)) (Nat.eqb 0) (fun _ => []) evs /\ steady None evs /\ active_after None evs = Some 0 /\ ascii_document (current (fun _ => []) evs 0) /\
  Exists (fun ev => concerns (Nat.eqb 0) (fst ev)) evs /\
  screen_after (Nat.eqb 0) evs = Ok (s, scr) /\ List.concat (current (fun _ => []) evs 0) = FallLang.text_of "ast { node a { x y } class" /\
  colours scr 0 HKeyword = [(0, 4)] /\ colours scr 0 HFunction = [(5, 6)] /\ problems scr 0 = [((7, 8), true, MUnresolvedReference)].
Proof.
  exists [(Opened 0 (chars_of [114; 117; 108; 101; 32; 97; 123; 98; 125]), None); (Switched, Some 0); (Rewritten 0 erring, Some 0)]. do 2 eexists.
  split. { cbn [plain]. split; [are_characters|]. split; [exact I|]. split; [|exact I]. unfold erring. cbn. are_characters. }
  split; [cbn; tauto|]. split; [reflexivity|].
  split. { unfold ascii_document. match goal with |- Forall _ ?l => let v := eval vm_compute in l in change l with v end. repeat (apply Forall_cons; [reflexivity|]). apply Forall_nil. }
  split; [apply Exists_cons_hd; reflexivity|].
  split; [vm_compute; reflexivity|]. repeat (split; [reflexivity|]). reflexivity.
Qed.
Print Assumptions C82_with_errors_refuted.

(** When the plugin starts nothing is shown: the grammar already open in the active editor stays without colours and problems until something
    happens; what happens to documents of other languages does not count. *)
Theorem C82_at_start_refuted : exists tx evs s scr f inc hs,
  plain (no_bare_raw (l_lexer real_fall)) (Nat.eqb 0) tx evs /\ steady (Some 0) evs /\ active_after (Some 0) evs = Some 0 /\ ascii_document (current tx evs 0) /\
  drawing real_fall (Some FALL_FILE) (Nat.eqb 0) 300 direct_paint direct_check 0 (mkSession tx (fun _ => None), nothing) evs = Ok (s, scr) /\
  parse_file real_fall 300 (List.concat (current tx evs 0)) = Ok (f, inc) /\ direct_paint f = Ok hs /\ filter (fun h => same_tag (snd h) HKeyword) hs <> [] /\ colours scr 0 HKeyword = [].
Proof.
  exists (fun _ => chars_of [114; 117; 108; 101; 32; 97; 123; 98; 125]), [(Changed 1 0 0 [[120]], Some 0)]. do 5 eexists.
  split. { cbn [plain]. split; [|exact I]. cbn. split; [lia|]. split; [are_characters|]. discriminate. }
  split; [cbn; tauto|]. split; [reflexivity|].
  split. { unfold ascii_document. match goal with |- Forall _ ?l => let v := eval vm_compute in l in change l with v end. repeat (apply Forall_cons; [reflexivity|]). apply Forall_nil. }
  split; [vm_compute; reflexivity|]. split; [vm_compute; reflexivity|]. split; [vm_compute; reflexivity|]. split; [discriminate|reflexivity].
Qed.
Print Assumptions C82_at_start_refuted.
