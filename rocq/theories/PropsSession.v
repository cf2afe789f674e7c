(** C74: the files of an editor session. *)
From Coq Require Import List Arith NArith Bool Lia.
From Verif Require Import Base BaseFacts TextModel TextSpec TextProofs EditModel LexModel LexSpec LexProofs ScanModel ScanSpec ScanProofs TreeModel TreeSpec
  FileEditSpec SearchProofs ViewProofs GrammarModel GrammarData ParserModel ConvertModel ReparseModel ReparseSpec AnalysisModel AnalysisSpec PropsComplete NestProofs PropsNest
  RegexModel RegexSpec RegexProofs RegexLang LexData FallLang PropsRegex RelexLang PropsRelex PropsCached SessionModel SessionSpec SessionProofs.
Import ListNotations.
Open Scope list_scope.

Lemma fall_rooted : forall U err binder, tables_ok U -> err_ok err -> (forall ty sp b, binder ty sp b <= length sp) ->
  forall fuel txt x, utf8 txt -> parse_file (fall_shipped U err binder) fuel txt = Ok x -> wrap (Some FALL_FILE) x = Ok x /\ f_text (fst x) = txt.
Proof.
  intros U err binder T E BO fuel txt [f inc] US P. destruct (C71_fall U longest err binder T longest_picks E BO) as (SF & YT & WH).
  destruct (C53_parsed _ fuel txt f inc SF YT (WH txt US) P) as (t & WF & TX & _ & (R0 & _)). split; [|exact TX].
  unfold wrap. cbn [fst]. rewrite ty_v by (apply (root_valid f t WF)). cbn [bind]. rewrite R0, Nat.eqb_refl. reflexivity.
Qed.

(** Whatever a user of the fall plugin does: parsing and editing never panic, every file the plugin holds is the file of the
    document's current text, and so is the file that highlighting, diagnostics, symbols, formatting and actions get; documents
    of other languages have none. [tx] are the texts when the plugin starts. *)
Theorem C74_session : forall U err binder known tx evs u active, tables_ok U -> err_ok err -> (forall ty sp b, binder ty sp b <= length sp) ->
  let L := fall_shipped U err binder in
  (forall w, characters (tx w)) -> plain (no_bare_raw (l_lexer L)) known tx evs ->
  exists fuel, forall more, exists s s', handle_all L (Some FALL_FILE) known (fuel + more) (mkSession tx (fun _ => None)) evs = Ok s /\
    (forall w x, docs s w = Some x -> parse_file L (fuel + more) (concat (current tx evs w)) = Ok x) /\
    if known u then exists x, get_file L (Some FALL_FILE) known (fuel + more) active s u = Ok (s', Some x) /\ parse_file L (fuel + more) (concat (current tx evs u)) = Ok x
    else get_file L (Some FALL_FILE) known (fuel + more) active s u = Ok (s', None).
Proof.
  intros U err binder known tx evs u active T E BO L C PL.
  exact (session_ok L (Some FALL_FILE) known (no_bare_raw (l_lexer L)) (fall_parses U err binder T E BO) (fall_rooted U err binder T E BO)
    (fun fuel0 fuel old f inc ops new x UO FI IU AS P AP PN => C73_total U err binder fuel0 fuel old f inc ops new x T E UO FI IU AS P AP PN) tx evs u active C PL).
Qed.
Print Assumptions C74_session.

(** ** Case *)

Definition chars_of (s : bytes) : document := map (fun b => [b]) s.

(** Two documents, the second of another language. The first is opened with "rule a{b}", gets an accented letter at its end,
    then a "c" after the "b"; it is shown all the time. *)
Definition typing : list (event * option nat) :=
  [(Opened 0 (chars_of [114; 117; 108; 101; 32; 97; 123; 98; 125]), Some 0); (Opened 1 [[195; 169]], Some 0); (Asked 0, Some 0);
   (Changed 0 9 9 [[195; 169]], Some 0); (Changed 0 8 8 [[99]], Some 0); (Changed 1 1 1 [[120]], Some 0)].

Ltac no_raw := let H := fresh in let N := fresh in
  intros ? ? H N; match type of H with ?l = _ => let v := eval vm_compute in l in replace l with v in H by (vm_compute; reflexivity) end; injection H as H; exfalso;
  repeat (match type of H with _ = ?b ++ _ => destruct b as [|? b]; [discriminate H|injection H as ? H] end);
  match type of H with _ = ?b ++ _ => destruct b; discriminate H end.
Ltac are_characters := repeat (apply Forall_cons; [split; [cbn; repeat constructor|intros ? Z; injection Z as <-; reflexivity]|]); apply Forall_nil.
Ltac are_ascii := unfold ascii_up_to; cbn [firstn]; repeat (apply Forall_cons; [reflexivity|]); apply Forall_nil.

Example C74_case : tables_ok ascii_U /\ err_ok one_char /\ (forall w, characters ((fun _ : nat => []) w)) /\
  plain (no_bare_raw (l_lexer real_fall)) (Nat.eqb 0) (fun _ => []) typing /\
  concat (current (fun _ => []) typing 0) = [114; 117; 108; 101; 32; 97; 123; 98; 99; 125; 195; 169] /\
  exists s x, handle_all real_fall (Some FALL_FILE) (Nat.eqb 0) 300 (mkSession (fun _ => []) (fun _ => None)) typing = Ok s /\ docs s 0 = Some x /\ docs s 1 = None /\
    f_text (fst x) = [114; 117; 108; 101; 32; 97; 123; 98; 99; 125; 195; 169].
Proof.
  split; [exact ascii_U_ok|]. split; [exact one_char_ok|]. split; [intros w; apply Forall_nil|]. split.
  { unfold typing. cbn [plain]. split; [are_characters|]. split; [are_characters|]. split; [exact I|].
    split. { cbn. split; [lia|]. split; [are_characters|]. intros _. split; [are_ascii|no_raw]. }
    split. { cbn. split; [lia|]. split; [are_characters|]. intros _. split; [are_ascii|no_raw]. }
    split; [|exact I]. cbn. split; [lia|]. split; [are_characters|]. discriminate. }
  split; [reflexivity|]. do 2 eexists. split; [vm_compute; reflexivity|]. split; [reflexivity|]. split; reflexivity.
Qed.

(** ** Offsets *)

(** The plugin sends offsets in UTF-16 units, the backend takes them for bytes. In a document with accented letters a letter
    typed at the end lands elsewhere: the file held is the file of another text. *)
Theorem C74_units_refuted : exists evs s x, Forall (fun ev => match fst ev with Changed _ i j _ => i <= j | _ => True end) evs /\
  handle_all real_fall (Some FALL_FILE) (Nat.eqb 0) 300 (mkSession (fun _ => []) (fun _ => None)) evs = Ok s /\ docs s 0 = Some x /\
  concat (current (fun _ => []) evs 0) = [195; 169; 195; 169; 120] /\ f_text (fst x) = [195; 169; 120; 195; 169].
Proof.
  exists [(Opened 0 [[195; 169]; [195; 169]], Some 0); (Changed 0 2 2 [[120]], Some 0)]. do 2 eexists. split; [repeat constructor|].
  split; [vm_compute; reflexivity|]. split; [reflexivity|]. split; reflexivity.
Qed.
Print Assumptions C74_units_refuted.

(** With one such letter the offset is inside it, and the backend panics. *)
Theorem C74_units_panic_refuted : exists evs, concat (current (fun _ => []) evs 0) = [195; 169; 120] /\
  handle_all real_fall (Some FALL_FILE) (Nat.eqb 0) 300 (mkSession (fun _ => []) (fun _ => None)) evs = Panic.
Proof. exists [(Opened 0 [[195; 169]], Some 0); (Changed 0 1 1 [[120]], Some 0)]. split; [reflexivity|]. vm_compute. reflexivity. Qed.
Print Assumptions C74_units_panic_refuted.

(** ** Raw strings *)

(** A file whose text is not that of the document is not the only way to be wrong: after "r##" the characters that complete a
    raw string are misread (C72), and the file held has another tree than the text. Here for the Rust plugin, which does not
    check the root of a file; the text is ASCII. *)
Definition real_rust : language := shipped_lang ascii_U one_char rust_rules rust_grammar rust_ws (fun _ _ _ => 0).
Definition completing : list (event * option nat) := [(Opened 0 (chars_of [114; 35; 35]), Some 0); (Changed 0 3 3 (chars_of [34; 34; 35; 35]), Some 0)].

Definition stale (L : language) (root : option nat) (evs : list (event * option nat)) : Prop :=
  exists s x y, plain (fun _ => True) (Nat.eqb 0) (fun _ => []) evs /\
    handle_all L root (Nat.eqb 0) 300 (mkSession (fun _ => []) (fun _ => None)) evs = Ok s /\ docs s 0 = Some x /\
    parse_file L 300 (concat (current (fun _ => []) evs 0)) = Ok y /\ f_text (fst x) = f_text (fst y) /\ f_nodes (fst x) <> f_nodes (fst y).

Ltac stale := do 3 eexists; split; [unfold completing; cbn [plain]; split; [are_characters|]; split; [|exact I]; cbn; split; [lia|]; split; [are_characters|]; intros _; split; [are_ascii|exact I]|];
  split; [vm_compute; reflexivity|]; split; [reflexivity|]; split; [vm_compute; reflexivity|]; split; [reflexivity|]; discriminate.

Theorem C74_rust_refuted : stale real_rust None completing.
Proof. stale. Qed.
Print Assumptions C74_rust_refuted.

Theorem C74_fall_refuted : stale real_fall (Some FALL_FILE) completing.
Proof. stale. Qed.
Print Assumptions C74_fall_refuted.
