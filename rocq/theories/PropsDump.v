(** C69, C70: the textual form of a syntax tree. *)
From Coq Require Import List Arith Bool Lia String.
From Verif Require Import Base BaseFacts TextModel TextSpec TreeModel TreeSpec TreeProofs LexModel LexSpec LexProofs GrammarModel GrammarData ConvertModel FileEditSpec LeafSpec WellFormed CheckProofs PropsCheck
  DeriveSpec CompleteProofs NestProofs AnalysisModel AnalysisSpec ViewProofs AlwaysSpec AlwaysProofs PropsAlways PropsComplete PropsNest RustEditModel RustLang FallLang
  DumpModel DumpSpec DumpProofs NameData NameModel NameProofs.
Import ListNotations.
Open Scope list_scope.

(** * C69: the lines *)

(** For every language whose grammar passes the check of C28 and every text: each node of the tree has a type that the
    language declares; it is an error, a type of the grammar, or the type that the lexer gave to a token. *)
Theorem C69_types : forall L c fuel txt f inc,
  well_formed (l_g L) c = true -> plain_spellings (l_g L) = true -> proper_spellings (l_g L) (l_ws L) ->
  progressing (l_lexer L) -> (forall b r, l_ws L (tk_ty (l_lexer L (b :: r))) = true -> b <= 32 \/ b = 47 \/ 128 <= b) ->
  (forall ty sp b, l_binder L ty sp b <= List.length sp) ->
  parse_file L fuel txt = Ok (f, inc) ->
  forall n, valid f n -> ty f n = ERROR \/ In (ty f n) (g_types (l_g L)) \/ exists s, s <> [] /\ ty f n = tk_ty (l_lexer L s).
Proof.
  intros L c fuel txt f inc WFG PL PS PR BL LB H n V.
  destruct (parsed L c fuel txt f inc WFG PL PS PR (fun b r E => blank_is b (BL b r E)) LB H) as (T & d & toks & WF & TX & B & DV & LX & TK & SP).
  destruct (Nat.eq_dec (ty f n) ERROR) as [NE|NE]; [left; exact NE|right].
  destruct (in_dec Nat.eq_dec (ty f n) (g_types (l_g L))) as [NG|NG]; [left; exact NG|right].
  destruct (in_dec Nat.eq_dec (ty f n) (map tk_ty toks)) as [NT|NT].
  { apply in_map_iff in NT. destruct NT as (u & E & J). destruct (tokenizes_types _ _ _ _ TK J) as (s & NS & ->). exists s. split; [exact NS|symmetry; exact E]. }
  exfalso. assert (NO : forall i, ~ gtype (l_g L) i (ty f n)) by (intros i E; apply NG; exact (nth_error_In _ _ E)).
  assert (K : forall k, In k (map (ty f) (kids f n))).
  { intros k. assert (GA : guaranteed (l_g L) (ty f n) k) by (constructor; auto; intros; exfalso; eapply NO; eauto).
    destruct (always_child (l_g L) (ty f n) k GA f T (l_ws L) d n WF B (always_tree (l_g L) (ty f n) k GA false d DV)) as (x & J & E).
    - split; [exact V|reflexivity].
    - intros l J. apply (spells_types (l_g L) txt (fun u => u <> ty f n)) with (off := 0) (l := leaves T) (ts := toks) (t := ty f n) (n := l); auto.
      + intros i j ctx u _ TY E. subst u. exact (NO _ TY).
      + intros u JU E. apply NT. rewrite <- E. apply in_map. exact JU.
    - rewrite <- E. apply in_map. exact J. }
  specialize (K (S (list_max (map (ty f) (kids f n))))). assert (A := list_max_le (map (ty f) (kids f n)) (list_max (map (ty f) (kids f n)))).
  destruct A as (A & _). specialize (A (le_n _)). rewrite Forall_forall in A. apply A in K. lia.
Qed.
Print Assumptions C69_types.

(** The shipped languages that pass the check of C28, with their whitespace and the names of their node types. *)
Inductive named : grammar -> (nat -> bool) -> list (nat * (string * bool)) -> Prop :=
| nm_fall : named fall_grammar fall_ws fall_names
| nm_rust : named rust_grammar rust_ws rust_names
| nm_sexp : named sexp_grammar sexp_ws sexp_names
| nm_bnf : named bnf_grammar bnf_ws bnf_names.

(** [L] is the language with this grammar, whitespace and names: its lexer makes progress and yields tokens which have names,
    and whitespace and comments start with a byte that no token spelled in the grammar has. *)
Record speaks (g : grammar) (ws : nat -> bool) (names : list (nat * (string * bool))) (L : language) : Prop := {
  sk_named : named g ws names;
  sk_grammar : l_g L = g;
  sk_ws : forall t, l_ws L t = ws t;
  sk_progress : progressing (l_lexer L);
  sk_blank : forall b r, l_ws L (tk_ty (l_lexer L (b :: r))) = true -> b <= 32 \/ b = 47 \/ 128 <= b;
  sk_binder : forall ty sp b, l_binder L ty sp b <= List.length sp;
  sk_tokens : forall s, s <> [] -> In (tk_ty (l_lexer L s)) (map fst names)
}.

Lemma named_shipped : forall g ws names, named g ws names -> shipped g.
Proof. intros g ws names [| | |]; constructor. Qed.
Lemma named_ok : forall g ws names, named g ws names -> names_ok names ws (ERROR :: g_types g) = true.
Proof. intros g ws names [| | |]; vm_compute; reflexivity. Qed.
Lemma named_spellings : forall g ws names, named g ws names -> forall w, (forall t, w t = ws t) -> proper_spellings g w.
Proof.
  intros g ws names N w EW e ty text R.
  assert (C : forallb (fun x => match x with EContextual ty text => negb (List.length text =? 0) && match nth_error (g_types g) ty with Some t => negb (ws t) | None => true end | _ => true end) (g_rules g) = true) by (destruct N; vm_compute; reflexivity).
  rewrite forallb_forall in C. apply nth_error_In in R. apply C in R. apply andb_true_iff in R. destruct R as (A & B). split; [intros ->; discriminate A|].
  intros t E. unfold gtype in E. rewrite E in B. rewrite EW. apply negb_true_iff. exact B.
Qed.

Lemma speaks_facts : forall g ws names L fuel txt f inc, speaks g ws names L -> whole_characters L txt -> parse_file L fuel txt = Ok (f, inc) ->
  exists T, wf_file f T /\ f_text f = txt /\ char_tree (f_text f) T /\ forall n, valid f n -> In (ty f n) (map fst names).
Proof.
  intros g ws names L fuel txt f inc [N G W P BL LB TK] WC H. subst g. destruct (C28_shipped _ (named_shipped _ _ _ N)) as ((c & WFG) & PL).
  pose proof (named_spellings _ _ _ N _ W) as PS.
  destruct (parsed L c fuel txt f inc WFG PL PS P (fun b r E => blank_is b (BL b r E)) LB H) as (T & d & toks & WF & TX & _ & _ & LX & _ & SP).
  exists T. split; [exact WF|]. split; [exact TX|]. split; [rewrite TX; exact (parsed_chars _ _ _ _ SP (fun k => WC toks k LX))|].
  intros n V. pose proof (names_types _ _ _ (named_ok _ _ _ N)) as NT. destruct (C69_types L c fuel txt f inc WFG PL PS P BL LB H n V) as [E|[E|(s & NE & E)]].
  - apply NT. left. symmetry. exact E.
  - apply NT. right. exact E.
  - rewrite E. exact (TK s NE).
Qed.

(** For every shipped language and every text, with errors or without: the textual form is made without a panic, and it has
    exactly the lines that DumpSpec.v describes, whatever the quoting of texts is. *)
Theorem C69_lines : forall g ws names debug L fuel txt f inc shown, speaks g ws names L -> whole_characters L txt -> parse_file L fuel txt = Ok (f, inc) ->
  exists b, dump (info_of names) debug f shown = Ok b /\ dumped (name_of names) ws debug f shown 0 0 b.
Proof.
  intros g ws names debug L fuel txt f inc shown SK WC H. destruct (speaks_facts _ _ _ _ _ _ _ _ SK WC H) as (T & WF & TX & CT & KN).
  apply (dump_ok (info_of names) debug (name_of names) ws f T WF CT). intros n V. exact (names_known _ _ _ (named_ok _ _ _ (sk_named _ _ _ _ SK)) _ (KN n V)).
Qed.
Print Assumptions C69_lines.

(** The names of the node types are different words in each of the seven generated parsers, and the whitespace of the table
    is that of the language. *)
Theorem C69_names : forall names ws types, In (names, ws, types)
  [(fall_names, fall_ws, g_types fall_grammar); (rust_names, rust_ws, g_types rust_grammar); (sexp_names, sexp_ws, g_types sexp_grammar); (bnf_names, bnf_ws, g_types bnf_grammar);
   (json_names, json_ws, g_types json_grammar); (arith_names, arith_ws, g_types arith_grammar); (weird_names, weird_ws, g_types weird_grammar)] ->
  legible (name_of names) quoted (fun t => In t (map fst names))
  /\ (forall t, In t (map fst names) -> info_of names t = Some (name_of names t, ws t))
  /\ forall t, t = ERROR \/ In t types -> In t (map fst names).
Proof.
  intros names ws types J. assert (C : names_ok names ws (ERROR :: types) = true).
  { repeat (destruct J as [E|J]; [injection E as <- <- <-; vm_compute; reflexivity|]). destruct J. }
  split; [exact (names_legible _ _ _ C)|]. split; [exact (names_known _ _ _ C)|].
  intros t E. apply (names_types _ _ _ C). destruct E as [E|E]; [left; symmetry; exact E|right; exact E].
Qed.
Print Assumptions C69_names.

(** ** The example languages are of this kind *)
Lemma in_names : forall (names : list (nat * (string * bool))) lo hi, forallb (fun t => existsb (Nat.eqb t) (map fst names)) (seq lo (hi - lo)) = true -> forall t, lo <= t < hi -> In t (map fst names).
Proof.
  intros names lo hi C t R. rewrite forallb_forall in C. specialize (C t ltac:(apply in_seq; lia)). apply existsb_exists in C. destruct C as (u & J & E). apply Nat.eqb_eq in E. subst u. exact J.
Qed.

Lemma C69_fall_lang : speaks fall_grammar fall_ws fall_names fall_lang.
Proof.
  pose proof C52_fall_lang as [G W P BL QU LB]. constructor; auto; [constructor|].
  intros s NE. pose proof (fall_yields s NE) as T. unfold token_type in T. destruct T as [T|T].
  - rewrite T. left. reflexivity.
  - apply (in_names fall_names 100 (S IDENT)); [vm_compute; reflexivity|]. unfold IDENT in *. lia.
Qed.

Lemma dump_case : forall s, forallb (fun b => b <? 128) s = true -> whole_characters fall_lang s.
Proof.
  intros s A. pose proof (sf_progress _ C52_fall_lang) as P. assert (F : Forall (fun b => b < 128) s) by (apply Forall_forall; intros x J; rewrite forallb_forall in A; apply Nat.ltb_lt; exact (A x J)).
  intros toks k LX. destruct (lex_ok (l_lexer fall_lang) s P) as (ts & LX' & TK). rewrite LX in LX'. injection LX' as <-.
  pose proof (tokenizes_lens _ P _ _ TK) as LEN. apply FallCheck.ascii_aligned; [exact F|]. rewrite <- LEN. rewrite <- (firstn_skipn k toks) at 2. rewrite lens_app. lia.
Qed.

Definition fall_dump (s : bytes) (shown : bool) : option bytes :=
  match parse_file fall_lang 5000 s with Ok (f, _) => match dump (info_of fall_names) quoted f shown with Ok b => Some b | _ => None end | _ => None end.
Definition lines (l : list string) : bytes := flat_map (fun s => FallLang.text_of s ++ [10]) l.

Example C69_case : speaks fall_grammar fall_ws fall_names fall_lang /\ whole_characters fall_lang (FallLang.text_of "rule a { b } +") /\
  fall_dump (FallLang.text_of "rule a { b } +") false = Some (lines
    ["FALL_FILE"; "  SYN_RULE"; "    RULE ""rule"""; "    IDENT ""a"""; "    BLOCK_EXPR"; "      L_CURLY ""{"""; "      SEQ_EXPR"; "        REF_EXPR"; "          IDENT ""b""";
     "      R_CURLY ""}"""; "  ERROR"; "    ERROR ""+"""]%string).
Proof. split; [exact C69_fall_lang|]. split; [apply dump_case; vm_compute; reflexivity|]. vm_compute. reflexivity. Qed.

(** * C70: trees that look the same are the same *)

(** Two syntax trees, however they were made, have the same textual form with whitespace exactly when they are the same: the
    same text, and the same nodes with the same types, ranges, parents and children. *)
Theorem C70_same : forall names debug ws f T f' T',
  legible (name_of names) debug (fun t => In t (map fst names)) -> (forall t, In t (map fst names) -> info_of names t = Some (name_of names t, ws t)) ->
  wf_file f T -> char_tree (f_text f) T -> (forall n, valid f n -> In (ty f n) (map fst names)) ->
  wf_file f' T' -> char_tree (f_text f') T' -> (forall n, valid f' n -> In (ty f' n) (map fst names)) ->
  dump_file_ws (info_of names) debug f = dump_file_ws (info_of names) debug f' <-> f = f'.
Proof.
  intros names debug ws f T f' T' LG IN WF CT KN WF' CT' KN'. split; [|intros ->; reflexivity]. unfold dump_file_ws. intros E.
  destruct (dump_ok (info_of names) debug (name_of names) ws f T WF CT (fun n V => IN _ (KN n V)) true) as (b & E1 & D1).
  destruct (dump_ok (info_of names) debug (name_of names) ws f' T' WF' CT' (fun n V => IN _ (KN' n V)) true) as (b' & E2 & D2).
  rewrite E1, E2 in E. injection E as <-. exact (dump_determines (name_of names) ws debug _ LG f T f' T' b WF WF' KN KN' D1 D2).
Qed.
Print Assumptions C70_same.

(** So for the files of a shipped language: the text can be read off. *)
Theorem C70_parsed : forall g ws names L fuel fuel' txt txt' f f' inc inc', speaks g ws names L -> whole_characters L txt -> whole_characters L txt' ->
  parse_file L fuel txt = Ok (f, inc) -> parse_file L fuel' txt' = Ok (f', inc') ->
  dump_file_ws (info_of names) quoted f = dump_file_ws (info_of names) quoted f' -> txt = txt' /\ f = f'.
Proof.
  intros g ws names L fuel fuel' txt txt' f f' inc inc' SK WC WC' H H' E. pose proof (named_ok _ _ _ (sk_named _ _ _ _ SK)) as C.
  destruct (speaks_facts _ _ _ _ _ _ _ _ SK WC H) as (T & WF & TX & CT & KN). destruct (speaks_facts _ _ _ _ _ _ _ _ SK WC' H') as (T' & WF' & TX' & CT' & KN').
  assert (Q : f = f') by (apply (C70_same names quoted ws f T f' T' (names_legible _ _ _ C) (names_known _ _ _ C)); assumption).
  split; [rewrite <- TX, <- TX', Q; reflexivity|exact Q].
Qed.
Print Assumptions C70_parsed.

Example C70_case : whole_characters fall_lang (FallLang.text_of "rule a { b }") /\ whole_characters fall_lang (FallLang.text_of "rule a { 'b' }") /\
  match fall_dump (FallLang.text_of "rule a { b }") true, fall_dump (FallLang.text_of "rule a { 'b' }") true with Some a, Some b => negb (list_eqb Nat.eqb a b) | _, _ => false end = true.
Proof. split; [apply dump_case; vm_compute; reflexivity|]. split; [apply dump_case; vm_compute; reflexivity|]. vm_compute. reflexivity. Qed.

(** Without whitespace it is false: the form that the tests of a grammar compare does not tell these texts apart, nor a text
    with a comment from the one without. *)
Theorem C70_whitespace_refuted : exists a b c d, fall_dump a false = Some d /\ fall_dump b false = Some d /\ fall_dump c false = Some d /\ a <> b /\ a <> c /\ b <> c.
Proof.
  exists (FallLang.text_of "rule a { b }"), (FallLang.text_of "rule a{b}"), (FallLang.text_of "rule a { b } //c").
  exists (lines ["FALL_FILE"; "  SYN_RULE"; "    RULE ""rule"""; "    IDENT ""a"""; "    BLOCK_EXPR"; "      L_CURLY ""{"""; "      SEQ_EXPR"; "        REF_EXPR"; "          IDENT ""b"""; "      R_CURLY ""}"""]%string).
  split; [vm_compute; reflexivity|]. split; [vm_compute; reflexivity|]. split; [vm_compute; reflexivity|]. repeat split; intros E; vm_compute in E; discriminate E.
Qed.
Print Assumptions C70_whitespace_refuted.
