(** C84: offsets are 32-bit numbers. For texts below 4 GiB the machine computes what the models of the other theorems compute, in debug and in
    release builds; beyond it does not. *)
From Coq Require Import List Arith Bool NArith Lia.
From Verif Require Import Base BaseFacts TextModel EditModel LexModel TreeModel SearchModel FileEditModel RustEditModel ConvertModel
  TextSpec TextProofs TreeSpec TreeProofs SearchProofs EditorProofs LexSpec LexProofs RustLang PropsAlways WordModel WordProofs PropsLex PropsRustEdit.
Import ListNotations.
Open Scope list_scope.
Open Scope nat_scope.

(** [n] is a [u32] *)
Definition fits (n : nat) : Prop := (N.of_nat n < 4294967296)%N.

Lemma fits_M : forall n, fits n <-> n < M.
Proof. intros n. unfold fits. rewrite <- M_val. lia. Qed.

Lemma small : forall n, n <= 5000 -> fits n.
Proof. intros n H. unfold fits. lia. Qed.

(** ** Texts *)

(** A text below 4 GiB is seen in full, and so is what is cut out of it. *)
Theorem C84_text : forall m s, fits (length s) -> as_text32 m s = Ok (as_text s)
  /\ forall t, owned t = s -> wf_text t ->
       text_len32 m t = text_len t
       /\ (forall r, proper r -> slice32 m t r = slice t r)
       /\ (forall o, slice_suffix32 m t o = slice_suffix t o)
       /\ (forall n, find32 t n = find t n)
       /\ (forall ws, trim32 m ws t = trim ws t).
Proof.
  intros m s F. apply fits_M in F. split; [apply as_text32_ok; exact F|]. intros t <- W.
  split; [apply text_len32_ok; exact W|]. split; [intros r P; apply slice32_ok; auto|].
  split; [intros o; apply slice_suffix32_ok; assumption|]. split; [intros n; apply find32_ok; assumption|].
  intros ws. apply trim32_ok; assumption.
Qed.
Print Assumptions C84_text.

(** With a range that ends before it starts a debug build panics, as it should. *)
Theorem C84_text_debug : forall t r, wf_text t -> fits (length (owned t)) -> fits (rstart r) -> slice32 Debug t r = slice t r /\ (rend r < rstart r -> slice32 Debug t r = Panic).
Proof.
  intros t r W F R. apply fits_M in F. apply fits_M in R. assert (E : slice32 Debug t r = slice t r) by (apply slice32_ok; auto). split; [exact E|].
  intros X. rewrite E. apply slice_panic_iff; [exact W|]. unfold proper. lia.
Qed.
Print Assumptions C84_text_debug.

(** Ranges: the constructors, the length and shifting *)
Theorem C84_ranges : forall m a n r o, fits (a + n) -> proper r -> fits (rend r + o) ->
  from_len32 m a n = from_len a n /\ range_len32 m r = range_len r /\ shift_right32 m r o = shift_right r o.
Proof.
  intros m a n r o A P B. apply fits_M in A. apply fits_M in B. unfold proper in P. split; [rewrite from_len_ok; apply from_len32_ok; exact A|].
  split; [apply range_len32_ok; right; exact P|]. apply shift32_ok; [right; exact P|lia|exact B].
Qed.
Print Assumptions C84_ranges.

(** ** Edits *)
Definition fits_call (c : edit_call) : Prop :=
  match c with CInsert o t => fits o /\ fits (length t) | CDelete r => fits (rstart r) /\ fits (rend r) | CReplace r t => fits (rstart r) /\ fits (rend r) /\ fits (length t) end.
Definition forwards (c : edit_call) : Prop := match c with CInsert _ _ => True | CDelete r | CReplace r _ => proper r end.

Lemma ordered_fits : forall cs p n, n < M -> ordered p n (map repl_of_call cs) ->
  Forall (fun c => r_from (repl_of_call c) <= r_to (repl_of_call c) /\ r_to (repl_of_call c) <= n) cs /\ p <= n.
Proof.
  induction cs as [|c cs IH]; intros p n N O; cbn [map ordered] in O; [split; [constructor|exact O]|].
  destruct O as (A & B & O). destruct (IH _ _ N O) as [F L]. split; [constructor; [split; assumption|exact F]|lia].
Qed.

Lemma ops_of_calls : forall m s cs ops, Forall (fun c => match c with CInsert _ t | CReplace _ t => length t < M | CDelete _ => True end) cs ->
  build_edit (as_text s) cs = Ok ops -> Forall (fun op => match op with Copy r => (m = Debug /\ rstart r < M) \/ proper r | Insert i => length i < M end) ops.
Proof.
  intros m s cs ops F E. unfold build_edit in E. apply bind_ok in E. destruct E as (b & E0 & E). apply bind_ok in E. destruct E as (b' & E1 & E).
  set (P := fun op => match op with Copy r => (m = Debug /\ rstart r < M) \/ proper r | Insert i => length i < M end).
  assert (ADV : forall b o b', Forall P (segments b) -> advance_to b o = Ok b' -> Forall P (segments b')).
  { clear. intros b o b' F A. unfold advance_to in A. destruct (Nat.compare (last_offset b) o); [injection A as <-; exact F| |discriminate].
    unfold copy_up_to in A. apply bind_ok in A. destruct A as (l & _ & A). unfold copy_len in A. rewrite from_len_ok in A. cbn [bind] in A. injection A as <-.
    cbn [segments]. apply Forall_app. split; [exact F|]. constructor; [|constructor]. cbn. right. unfold proper. cbn. lia. }
  assert (RUN : forall cs b b', Forall (fun c => match c with CInsert _ t | CReplace _ t => length t < M | CDelete _ => True end) cs -> Forall P (segments b) -> run_calls b cs = Ok b' -> Forall P (segments b')).
  { clear - ADV. induction cs as [|c cs IH]; intros b b' FC F E; cbn [run_calls] in E; [injection E as <-; exact F|].
    inversion FC as [|? ? F1 F2]; subst. apply bind_ok in E. destruct E as (b1 & E1 & E). apply (IH _ _ F2) with (2 := E).
    destruct c as [o t|r|r t]; cbn [run_call] in E1; unfold eb_insert, eb_delete, eb_replace in E1; apply bind_ok in E1; destruct E1 as (b2 & E2 & E1); specialize (ADV _ _ _ F E2).
    - injection E1 as <-. cbn. apply Forall_app. split; [exact ADV|]. constructor; [exact F1|constructor].
    - apply bind_ok in E1. destruct E1 as (l & _ & E1). injection E1 as <-. exact ADV.
    - apply bind_ok in E1. destruct E1 as (l & _ & E1). injection E1 as <-. cbn. apply Forall_app. split; [exact ADV|]. constructor; [exact F1|constructor]. }
  unfold eb_build in E. apply bind_ok in E. destruct E as (b2 & E2 & E). injection E as <-. apply (ADV _ _ _) with (2 := E2). apply (RUN cs b b' F) with (2 := E1).
  unfold eb_new in E0. apply bind_ok in E0. destruct E0 as (l & _ & E0). injection E0 as <-. constructor.
Qed.

(** Edits from left to right in a text below 4 GiB, with new texts below 4 GiB, replace what they say, in both builds. The result may be longer. *)
Theorem C84_edits : forall m s cs, fits (length s) -> Forall (fun c => fits (length (r_what (repl_of_call c)))) cs ->
  ordered 0 (length s) (map repl_of_call cs) -> repls_aligned s (map repl_of_call cs) ->
  exists ops, build_edit32 m s cs = Ok ops /\ apply32 m ops s = Ok (splice 0 s (map repl_of_call cs)).
Proof.
  intros m s cs S F O A. apply fits_M in S. destruct (build_edit_ok s cs O A) as (ops & E & Ap). exists ops.
  destruct (ordered_fits cs 0 (length s) S O) as [F2 _]. split.
  - rewrite build_edit32_ok; [exact E|exact S|]. eapply Forall_impl; [|exact F2]. intros [o t|r|r t] [X Y]; cbn in *; unfold proper; lia.
  - unfold apply32. rewrite as_text32_ok by exact S. cbn [bind]. rewrite apply_from32_ok; [exact Ap|exact S|]. apply (ops_of_calls m s cs); [|exact E].
    eapply Forall_impl; [|exact F]. intros [o t|r|r t] X; cbn in *; [apply fits_M; exact X|exact I|apply fits_M; exact X].
Qed.
Print Assumptions C84_edits.

(** Others panic, unless one of the ranges ends before it starts and the build is a release build. *)
Theorem C84_edits_panic : forall m s cs, fits (length s) -> Forall fits_call cs -> m = Debug \/ Forall forwards cs ->
  ~ ordered 0 (length s) (map repl_of_call cs) -> build_edit32 m s cs = Panic.
Proof.
  intros m s cs S F D N. apply fits_M in S. rewrite build_edit32_ok; [apply build_edit_panics; exact N|exact S|].
  apply Forall_forall. intros c J. rewrite Forall_forall in F. specialize (F c J).
  assert (Q : m = Debug \/ forwards c) by (destruct D as [D|D]; [left; exact D|right; rewrite Forall_forall in D; exact (D c J)]).
  destruct c as [o t|r|r t]; cbn in F, Q |- *; [apply fits_M; tauto| |]; (split; [apply fits_M; tauto|]); (split; [apply fits_M; tauto|exact Q]).
Qed.
Print Assumptions C84_edits_panic.

(** Applying an edit, however it was made *)
Theorem C84_apply : forall m s ops, fits (length s) -> Forall (fun op => match op with Copy r => proper r | Insert i => fits (length i) end) ops ->
  apply32 m ops s = apply ops (as_text s).
Proof.
  intros m s ops S F. apply fits_M in S. unfold apply32. rewrite as_text32_ok by exact S. cbn [bind]. apply apply_from32_ok; [exact S|].
  eapply Forall_impl; [|exact F]. intros [r|i] X; [right; exact X|apply fits_M; exact X].
Qed.
Print Assumptions C84_apply.

(** ** Trees *)

(** A tree of at most 2^32 nodes over less than 4 GiB is stored as it is ... *)
Theorem C84_tree : forall m cs, fits (length cs) -> fits (sum (map (fun c => match c with CLeaf _ n => n | _ => 0 end) cs)) -> tb_build32 m cs = tb_build cs.
Proof. intros m cs A B. apply fits_M in A. apply fits_M in B. apply tb_build32_ok; [lia|exact B]. Qed.
Print Assumptions C84_tree.

(** ... with the texts of its nodes, and a leaf that would end beyond the 4 GiB is refused in both builds. *)
Theorem C84_node_text : forall m f T n p q t, wf_file f T -> fits (length (f_text f)) -> At T n p q t -> node_text32 m f n = node_text f n /\ node_text32 m f n = Ok (mkText (f_text f) (mkRange p (p + tlen t))).
Proof.
  intros m f T n p q t [ST L] F A. apply fits_M in F. pose proof (SearchProofs.range_ok (f_nodes f) T ST _ _ _ _ A) as R.
  assert (E : node_text32 m f n = node_text f n) by (apply node_text32_ok; [exact F|intros r X; rewrite R in X; injection X as <-; unfold proper; cbn; lia]).
  split; [exact E|]. rewrite E. unfold node_text. rewrite R. cbn [bind].
  pose proof (EditorProofs.At_within f T (conj ST L) _ _ _ _ A) as B.
  unfold slice, text_len. cbn [as_text owned trange rstart rend]. rewrite usub_le by lia. cbn [bind]. rewrite (proj2 (Nat.leb_le _ _)) by lia. cbn [guard].
  rewrite (proj2 (Nat.leb_le _ _)) by lia. cbn [guard]. rewrite usub_le by lia. cbn [bind]. rewrite from_to_ok by lia. cbn [bind]. do 3 f_equal. lia.
Qed.
Print Assumptions C84_node_text.

Theorem C84_tree_overflow : forall m b ty n, fits (tb_pos b) -> fits n -> ~ fits (tb_pos b + n) -> tb_leaf32 m b ty n = Panic.
Proof.
  intros m b ty n A B C. apply fits_M in A. apply fits_M in B. assert (D : M <= tb_pos b + n) by (destruct (Nat.lt_ge_cases (tb_pos b + n) M) as [X|X]; [destruct C; apply fits_M; exact X|exact X]).
  unfold tb_leaf32, from_len32, wadd. rewrite (proj2 (Nat.ltb_ge _ _) D). destruct m; [reflexivity|]. cbn [bind]. unfold from_to.
  rewrite (proj2 (Nat.leb_gt _ _)) by lia. reflexivity.
Qed.
Print Assumptions C84_tree_overflow.

(** ** Lexing *)
Theorem C84_lex : forall lx s, progressing lx -> fits (length s) -> lex (lexer32 lx) s = lex lx s.
Proof. intros lx s P F. apply lex32_ok; [exact P|apply fits_M; exact F]. Qed.
Print Assumptions C84_lex.

(** Relexing after any edit of a text below 4 GiB with a result below 4 GiB *)
Theorem C84_relex : forall m lx old old_toks ops new, progressing lx -> fits (length old) -> fits (length new) ->
  sum (map tk_len old_toks) = length old -> apply ops (as_text old) = Ok new -> relex32 m (lexer32 lx) old_toks ops new = relex lx old_toks ops new.
Proof. intros m lx old old_toks ops new P A B L Ap. apply fits_M in A. apply fits_M in B. exact (relex32_ok m lx old old_toks ops new P L A B Ap). Qed.
Print Assumptions C84_relex.

(** ** The Rust editor: the subtractions at the start of the file *)

(** The release build wraps around and panics a little later: it answers exactly as the debug build, at every offset. *)
Theorem C84_rust_start : forall m L txt f o, rust_file L txt f -> fits (length txt + 3) ->
  after_space_typed32 m f o = after_space_typed f o /\ breadcrumbs32 m f o = breadcrumbs f o /\ expand32 m f o = expand f o
  /\ after_space_typed32 m f 0 = Panic /\ breadcrumbs32 m f 0 = Panic /\ expand32 m f 0 = Panic /\ expand32 m f 1 = Panic.
Proof.
  intros m L txt f o RF F. apply fits_M in F. destruct (rust_facts _ _ _ RF) as (T & W & TX & _). rewrite <- TX in F.
  rewrite !(after_space_typed32_ok m f T W F), !(breadcrumbs32_ok m f T W F), !(expand32_ok m f T W F).
  destruct (C63_start_refuted f) as (A & B & C & D). auto 10.
Qed.
Print Assumptions C84_rust_start.

(** ** Beyond *)

(** A text of 4 GiB is taken for an empty one, without a panic. *)
Theorem C84_big_text_refuted : exists s, length s = M /\ (forall n, n < 5000 -> nth_error s n = Some 97) /\ forall m, exists t, as_text32 m s = Ok t /\ as_str t = Ok [].
Proof.
  exists (repeat 97 M). split; [apply repeat_length|]. pose proof M_pos as P. split.
  - intros n H. assert (X : nth_error (repeat 97 M) n <> None) by (apply nth_error_Some; rewrite repeat_length; lia).
    destruct (nth_error (repeat 97 M) n) as [v|] eqn:E; [|destruct X; reflexivity]. apply nth_error_In in E. apply repeat_spec in E. rewrite E. reflexivity.
  - intros m. exists (mkText (repeat 97 M) (mkRange 0 0)). unfold as_text32. rewrite repeat_length, as_u32_M. rewrite from_len32_ok by lia. split; reflexivity.
Qed.
Print Assumptions C84_big_text_refuted.

(** An insertion of 4 GiB inserts nothing. *)
Lemma inserts_nothing : forall m s i, length s < M -> length i = M -> apply32 m [Insert i] s = Ok [].
Proof.
  intros m s i F L. pose proof M_pos as P. unfold apply32. rewrite as_text32_ok by exact F. cbn [bind apply_from32].
  assert (E : as_text32 m i = Ok (mkText i (mkRange 0 0))) by (unfold as_text32; rewrite L, as_u32_M, from_len32_ok by lia; reflexivity).
  rewrite E. reflexivity.
Qed.
Theorem C84_big_insert_refuted : exists i, length i = M /\ i <> [] /\ forall m s, fits (length s) -> apply32 m [Insert i] s = Ok [].
Proof.
  assert (X : exists i : bytes, length i = M) by (exists (repeat 97 M); apply repeat_length). destruct X as [i L]. exists i. split; [exact L|]. split.
  - intros ->. pose proof M_pos. cbn [length] in L. lia.
  - intros m s F. apply fits_M in F. apply inserts_nothing; assumption.
Qed.
Print Assumptions C84_big_insert_refuted.

(** Deleting from 2 to 1 in "abc": a debug build panics; a release build, that of the plugins, answers with the text "abbc". The range comes
    unchecked from the editor. *)
Theorem C84_backwards_refuted : exists s r, s = [97; 98; 99] /\ r = mkRange 2 1 /\ build_edit32 Debug s [CDelete r] = Panic
  /\ exists ops, build_edit32 Release s [CDelete r] = Ok ops /\ apply32 Release ops s = Ok [97; 98; 98; 99].
Proof.
  pose proof M_pos as P. exists [97; 98; 99], (mkRange 2 1). do 2 (split; [reflexivity|]). split.
  - rewrite build_edit32_ok; [reflexivity|cbn; lia|]. constructor; [|constructor]. cbn. repeat split; try lia. left. reflexivity.
  - exists [Copy (mkRange 0 2); Copy (mkRange 1 3)]. split.
    + unfold build_edit32. rewrite as_text32_ok by (cbn; lia). cbn [bind]. rewrite text_len32_ok by apply as_text_wf.
      change (text_len (as_text [97; 98; 99])) with (@Ok nat 3). cbn [bind fold_res run_call32 rstart]. rewrite advance_to32_ok by lia.
      change (advance_to (mkEB [] 0 3) 2) with (Ok (mkEB [Copy (mkRange 0 2)] 2 3)). cbn [bind].
      assert (D : range_len32 Release (mkRange 2 1) = Ok (1 + M - 2)) by reflexivity. rewrite D. cbn [bind]. unfold delete_len32. cbn [last_offset segments eb_text_len].
      assert (Q : wadd Release 2 (1 + M - 2) = Ok 1). { unfold wadd. revert P. generalize M. intros K P. rewrite (proj2 (Nat.ltb_ge _ _)) by lia. f_equal. lia. }
      rewrite Q. cbn [bind eb_text_len]. rewrite advance_to32_ok by lia. reflexivity.
    + unfold apply32. rewrite as_text32_ok by (cbn; lia). cbn [bind]. rewrite apply_from32_ok; [reflexivity|cbn; lia|].
      repeat constructor; right; unfold proper; cbn; lia.
Qed.
Print Assumptions C84_backwards_refuted.

(** ** The hypotheses are met *)
Example C84_case : forall m, fits (length [97; 195; 169; 98]) /\ slice32 m (as_text [97; 195; 169; 98]) (mkRange 1 3) = Ok (mkText [97; 195; 169; 98] (mkRange 1 3))
  /\ exists ops, build_edit32 m [97; 98; 99] [CReplace (mkRange 0 2) [120; 121; 122]; CInsert 3 [33]] = Ok ops /\ apply32 m ops [97; 98; 99] = Ok [120; 121; 122; 99; 33].
Proof.
  intros m. split; [apply small; cbn; lia|]. split.
  - destruct (C84_text m [97; 195; 169; 98] ltac:(apply small; cbn; lia)) as [_ H]. destruct (H (as_text [97; 195; 169; 98]) eq_refl (as_text_wf _)) as (_ & S & _).
    rewrite S by (unfold proper; cbn; lia). reflexivity.
  - apply (C84_edits m [97; 98; 99] [CReplace (mkRange 0 2) [120; 121; 122]; CInsert 3 [33]]).
    + apply small. cbn. lia.
    + repeat constructor; apply small; cbn; lia.
    + cbn. lia.
    + repeat (first [apply boundary_spec; reflexivity | constructor]).
Qed.
Example C84_relex_case : forall m, relex32 m (lexer32 digit_lexer) [mkTok 2 2; mkTok 1 1; mkTok 2 1] [Copy (mkRange 0 3); Insert [49]; Copy (mkRange 3 4)] [48; 49; 97; 49; 50]
  = Ok ([mkTok 2 2; mkTok 1 1; mkTok 2 2], 3).
Proof.
  intros m. rewrite (C84_relex m digit_lexer [48; 49; 97; 50]); [reflexivity|exact digit_lexer_progress|apply small; cbn; lia|apply small; cbn; lia|reflexivity|reflexivity].
Qed.
From Coq Require Import String.
Definition let_text : bytes := Eval vm_compute in t "fn main() { let x }".
Example C84_rust_file : exists f inc, parse_file rust_lang 5000 let_text = Ok (f, inc) /\ rust_file rust_lang let_text f.
Proof. apply rust_case; vm_compute; reflexivity. Qed.
Example C84_rust_values : rust_value let_text (fun f => (after_space_typed f 16, breadcrumbs f 16)) = Some (Ok (Some (t ";")), Ok [t "fn main"]).
Proof. vm_compute. reflexivity. Qed.
Lemma rust_value_eq : forall A (g : file -> A) s f inc, parse_file rust_lang 5000 s = Ok (f, inc) -> rust_value s g = Some (g f).
Proof. intros A g s f inc P. unfold rust_value. rewrite P. reflexivity. Qed.
Lemma let_fits : fits (List.length let_text + 3).
Proof. apply small. cbn. lia. Qed.
Example C84_rust_case : exists f inc, parse_file rust_lang 5000 let_text = Ok (f, inc)
  /\ forall m, after_space_typed32 m f 16 = Ok (Some (t ";")) /\ breadcrumbs32 m f 0 = Panic /\ breadcrumbs32 m f 16 = Ok [t "fn main"].
Proof.
  destruct C84_rust_file as (f & inc & P & RF). exists f, inc. split; [exact P|]. intros m.
  assert (V : Some (after_space_typed f 16, breadcrumbs f 16) = Some (Ok (Some (t ";")), Ok [t "fn main"])) by (rewrite <- C84_rust_values; symmetry; exact (rust_value_eq _ (fun f => (after_space_typed f 16, breadcrumbs f 16)) _ _ _ P)).
  destruct (C84_rust_start m _ _ f 16 RF let_fits) as (A & B & _ & _ & C & _).
  apply (f_equal (fun o => match o with Some x => x | None => (Panic, Panic) end)) in V.
  split; [|split; [exact C|]].
  - rewrite A. exact (f_equal fst V).
  - rewrite B. exact (f_equal snd V).
Qed.
