(** C81: when the accessors of the shipped languages panic. *)
From Coq Require Import List Arith Bool Lia String.
From Verif Require Import Base BaseFacts TextModel TextSpec TreeModel TreeSpec TreeProofs SearchModel LexModel LexSpec LexProofs GrammarModel ParserModel ConvertModel GrammarData FileEditSpec
  AnalysisModel AnalysisSpec CodegenModel FallLang FallCheck RustEditModel RustLang WellFormed CheckProofs ForestSpec SemSpec LeafSpec DeriveProofs PropsCheck PropsComplete DeriveSpec ShapeCheck CompleteProofs
  NestProofs PropsNest AlwaysProofs PropsAlways NameData PropsDump RegexModel RegexSpec RegexProofs LexData ScanSpec ScanProofs PropsRegex AccessorData RuntimeModel RuntimeSpec RuntimeProofs RuntimeCheck OwnsProofs RuntimeShape PropsRuntime.
Import ListNotations.
Open Scope list_scope.
Open Scope nat_scope.

(** Nodes have a child of one of the types if the check on the grammar says so, whatever the text is. *)
Lemma owned_child : forall L c fuel txt f inc t l N n,
  well_formed (l_g L) c = true -> plain_spellings (l_g L) = true -> proper_spellings (l_g L) (l_ws L) ->
  progressing (l_lexer L) -> (forall b r, l_ws L (tk_ty (l_lexer L (b :: r))) = true -> b <= 32 \/ b = 47 \/ 128 <= b) ->
  (forall ty sp b, l_binder L ty sp b <= List.length sp) ->
  parse_file L fuel txt = Ok (f, inc) -> owns_b (l_g L) t l N = true ->
  (forall s, s <> [] -> tk_ty (l_lexer L s) <> t) -> (forall e ty text, grule (l_g L) e (EContextual ty text) -> ~ gtype (l_g L) ty t) ->
  is_a f t n -> exists x, In x (kids f n) /\ In (ty f x) l.
Proof.
  intros L c fuel txt f inc t l N n WFG PL PS PR BL LB H OW NL NC A.
  destruct (parsed L c fuel txt f inc WFG PL PS PR (fun b r E => blank_is b (BL b r E)) LB H) as (T & d & toks & WF & TX & B & DV & LX & TK & SP).
  apply (owns_child (l_g L) t l N OW f T (l_ws L) d n WF B DV A).
  intros k J. apply (spells_types (l_g L) txt (fun u => u <> t)) with (off := 0) (l := leaves T) (ts := toks) (t := t) (n := k); auto.
  - intros i j ctx u R TY E. subst u. exact (NC _ _ _ R TY).
  - intros u JU. destruct (tokenizes_types _ _ _ _ TK JU) as (s & NE & ->). exact (NL s NE).
Qed.

(** The tokens written in a grammar have numbers up to [last]. *)
Definition contextual_upto (g : grammar) (last : nat) : bool :=
  forallb (fun x => match x with EContextual ty _ => match nth_error (g_types g) ty with Some t => t <=? last | None => true end | _ => true end) (g_rules g).
Lemma contextual_not : forall g last t, contextual_upto g last = true -> last < t -> forall e ty text, grule g e (EContextual ty text) -> ~ gtype g ty t.
Proof.
  intros g last t C LT e ty text R T. unfold contextual_upto in C. rewrite forallb_forall in C. apply nth_error_In in R. apply C in R. unfold gtype in T. rewrite T in R. apply Nat.leb_le in R. lia.
Qed.
Definition spelled (g : grammar) (ws : nat -> bool) : bool :=
  forallb (fun x => match x with EContextual ty text => negb (List.length text =? 0) && match nth_error (g_types g) ty with Some t => negb (ws t) | None => true end | _ => true end) (g_rules g).
Lemma spelled_ok : forall g ws w, spelled g ws = true -> (forall t, w t = ws t) -> proper_spellings g w.
Proof.
  intros g ws w C EW e ty text R. unfold spelled in C. rewrite forallb_forall in C. apply nth_error_In in R. apply C in R. apply andb_true_iff in R. destruct R as (A & B). split; [intros ->; discriminate A|].
  intros t E. unfold gtype in E. rewrite E in B. rewrite EW. apply negb_true_iff. exact B.
Qed.

(** The facts of a parse that the accessors rest on *)
Lemma accessors_on : forall g ws x names last L fuel txt f inc, shipped g -> spelled g ws = true -> contextual_upto g last = true ->
  l_g L = g -> (forall t, l_ws L t = ws t) -> progressing (l_lexer L) -> (forall b r, l_ws L (tk_ty (l_lexer L (b :: r))) = true -> b <= 32 \/ b = 47 \/ 128 <= b) ->
  (forall ty sp b, l_binder L ty sp b <= List.length sp) -> (forall s, s <> [] -> tk_ty (l_lexer L s) <= last) -> whole_characters L txt -> parse_file L fuel txt = Ok (f, inc) ->
  module_ok (types_of names) x 1 = true -> distinct (map cn_struct (ca_nodes x)) = true ->
  forall y m n more, In y (ca_nodes x) -> has_method x y m -> wrap (types_of names) x f (more + 1) (cn_struct y) n = Ok (Some (AStruct (cn_struct y) n)) ->
  (exists r, call (types_of names) x f (more + 1) (cm_body m) n = Ok r) \/
  (exists l, In (cn_struct y, cm_name m, (ty f n, l)) (required (types_of names) x 1) /\ valid f n /\ (~ exists c, In c (kids f n) /\ In (ty f c) l) /\
     call (types_of names) x f (more + 1) (cm_body m) n = Panic /\ (last < ty f n -> owns_b g (ty f n) l 6 = false)).
Proof.
  intros g ws x names last L fuel txt f inc SH SPL CU EG EW PR BL LB TK WC H MO DI y m n more JY HM W. subst g. destruct (C28_shipped _ SH) as ((c & WFG) & PL). pose proof (spelled_ok _ _ _ SPL EW) as PS.
  destruct (parsed L c fuel txt f inc WFG PL PS PR (fun b r E => blank_is b (BL b r E)) LB H) as (T & d & toks & WF & TX & _ & _ & LX & _ & SP).
  assert (CH : char_tree (f_text f) T) by (rewrite TX; exact (parsed_chars _ _ _ _ SP (fun k => WC toks k LX))).
  destruct (total (types_of names) x f T WF CH 1 more MO (distinct_ok _ DI) y m n JY HM W) as [OK|(l & J & V & NO & P)]; [left; exact OK|right]. exists l. split; [exact J|]. split; [exact V|]. split; [exact NO|]. split; [exact P|].
  intros LT. destruct (owns_b (l_g L) (ty f n) l 6) eqn:OW; [|reflexivity]. exfalso. apply NO.
  apply (owned_child L c fuel txt f inc (ty f n) l 6 n WFG PL PS PR BL LB H OW); [intros s NE E; specialize (TK s NE); lia|apply (contextual_not _ last); assumption|split; [exact V|reflexivity]].
Qed.

(** Every value of every AST type of the Rust parser: each of its methods returns, whatever the text is. *)
Theorem C81_rust : forall L fuel txt f inc, speaks_rust L -> whole_characters L txt -> parse_file L fuel txt = Ok (f, inc) ->
  forall y m n more, In y (ca_nodes rust_ast) -> has_method rust_ast y m ->
  wrap (types_of rust_names) rust_ast f (more + 1) (cn_struct y) n = Ok (Some (AStruct (cn_struct y) n)) ->
  exists r, call (types_of rust_names) rust_ast f (more + 1) (cm_body m) n = Ok r.
Proof.
  intros L fuel txt f inc [G W B P BL TK] WC H y m n more JY HM WR.
  destruct (accessors_on rust_grammar rust_ws rust_ast rust_names RS_IDENT L fuel txt f inc sh_rust ltac:(vm_compute; reflexivity) ltac:(vm_compute; reflexivity) G W P BL ltac:(intros; rewrite B; apply rust_binder_le) TK WC H
    ltac:(vm_compute; reflexivity) ltac:(vm_compute; reflexivity) y m n more JY HM WR) as [OK|(l & J & V & NO & PN & OW)]; [exact OK|exfalso].
  rewrite rust_needs_are in J. pose proof (proj1 (forallb_forall _ _) rust_owns _ J) as C. cbn beta in C. cbn [fst snd] in C. rewrite OW in C; [discriminate C|].
  assert (BIG : forallb (fun r => RS_IDENT <? fst (snd r)) rust_needs = true) by (vm_compute; reflexivity). rewrite forallb_forall in BIG. apply BIG in J. apply Nat.ltb_lt. exact J.
Qed.
Print Assumptions C81_rust.

(** The same for BNF. *)
Theorem C81_bnf : forall L fuel txt f inc, speaks bnf_grammar bnf_ws bnf_names L -> (forall s, s <> [] -> tk_ty (l_lexer L s) <= 104) -> whole_characters L txt -> parse_file L fuel txt = Ok (f, inc) ->
  forall y m n more, In y (ca_nodes bnf_ast) -> has_method bnf_ast y m ->
  wrap (types_of bnf_names) bnf_ast f (more + 1) (cn_struct y) n = Ok (Some (AStruct (cn_struct y) n)) ->
  exists r, call (types_of bnf_names) bnf_ast f (more + 1) (cm_body m) n = Ok r.
Proof.
  intros L fuel txt f inc [NM G W P BL LB _] TK WC H y m n more JY HM WR.
  destruct (accessors_on bnf_grammar bnf_ws bnf_ast bnf_names 104 L fuel txt f inc sh_bnf ltac:(vm_compute; reflexivity) ltac:(vm_compute; reflexivity) G W P BL LB TK WC H
    ltac:(vm_compute; reflexivity) ltac:(vm_compute; reflexivity) y m n more JY HM WR) as [OK|(l & J & V & NO & PN & OW)]; [exact OK|exfalso].
  rewrite bnf_needs_are in J. pose proof (proj1 (forallb_forall _ _) bnf_owns _ J) as C. cbn beta in C. cbn [fst snd] in C. rewrite OW in C; [discriminate C|].
  assert (BIG : forallb (fun r => 104 <? fst (snd r)) bnf_needs = true) by (vm_compute; reflexivity). rewrite forallb_forall in BIG. apply BIG in J. apply Nat.ltb_lt. exact J.
Qed.
Print Assumptions C81_bnf.

(** Grammar files: on a text with errors only these methods can panic. *)
Definition risky : list (bytes * bytes) := map (fun q => (FallLang.text_of (fst q), FallLang.text_of (snd q)))
  [("SynRule", "body"); ("VerbatimDef", "literal_string"); ("AstNodeDef", "name_ident"); ("AstNodeDef", "name"); ("AstClassDef", "name_ident"); ("AstTraitDef", "name_ident"); ("AstTraitDef", "name")]%string.
Theorem C81_fall : forall L fuel txt f inc, speaks_fall L -> yields_tokens L -> whole_characters L txt -> parse_file L fuel txt = Ok (f, inc) ->
  forall y m n more, In y (ca_nodes fall_ast) -> has_method fall_ast y m ->
  wrap (types_of fall_names) fall_ast f (more + 1) (cn_struct y) n = Ok (Some (AStruct (cn_struct y) n)) ->
  (exists r, call (types_of fall_names) fall_ast f (more + 1) (cm_body m) n = Ok r) \/
  (call (types_of fall_names) fall_ast f (more + 1) (cm_body m) n = Panic /\ In (cn_struct y, cm_name m) risky /\ ~ no_error_nodes f).
Proof.
  intros L fuel txt f inc [G W P BL QU LB] YT WC H y m n more JY HM WR.
  assert (TK : forall s, s <> [] -> tk_ty (l_lexer L s) <= IDENT) by (intros s NE; pose proof (YT s NE) as X; unfold token_type, IDENT, ERROR in *; lia).
  destruct (accessors_on fall_grammar fall_ws fall_ast fall_names IDENT L fuel txt f inc sh_fall ltac:(vm_compute; reflexivity) ltac:(vm_compute; reflexivity) G W P BL LB TK WC H
    ltac:(vm_compute; reflexivity) ltac:(vm_compute; reflexivity) y m n more JY HM WR) as [OK|(l & J & V & NO & PN & OW)]; [left; exact OK|right]. split; [exact PN|]. rewrite fall_needs_are in J. split.
  - pose proof (proj1 (forallb_forall _ _) fall_owns _ J) as C. cbn beta in C. cbn [fst snd] in C. rewrite OW in C.
    + assert (R : forallb (fun r => negb (listed (fst (snd r)) risky_types) || existsb (fun q => bytes_eqb (fst q) (fst (fst r)) && bytes_eqb (snd q) (snd (fst r))) risky) fall_needs = true) by (vm_compute; reflexivity).
      rewrite forallb_forall in R. apply R in J. cbn [fst snd] in J. rewrite orb_false_r in C. rewrite C in J. cbn [negb orb] in J. apply existsb_exists in J. destruct J as ((s & t) & J & E). apply andb_true_iff in E. cbn [fst snd] in E. destruct E as (E1 & E2).
      apply beq in E1. apply beq in E2. subst s t. exact J.
    + assert (BIG : forallb (fun r => IDENT <? fst (snd r)) fall_needs = true) by (vm_compute; reflexivity). rewrite forallb_forall in BIG. apply BIG in J. apply Nat.ltb_lt. exact J.
  - intros NE. apply NO. destruct (C28_shipped fall_grammar sh_fall) as ((c & WFG) & PL).
    assert (PS : proper_spellings (l_g L) (l_ws L)) by (rewrite G; apply (spelled_ok _ fall_ws); [vm_compute; reflexivity|exact W]).
    destruct (parsed L c fuel txt f inc ltac:(rewrite G; exact WFG) ltac:(rewrite G; exact PL) PS P (fun b r E => blank_is b (BL b r E)) LB H) as (T & d & toks & WF & TX & B & DV & _). rewrite G in *.
    assert (G0 : exists i, get fall_needs_table 0 no_args = Some i) by (eexists; vm_compute; reflexivity). destruct G0 as (i & G0).
    destruct (table_tree (needs_of fall_needs) fall_grammar fall_needs_table fall_needs_ok d i (DeriveProofs.derivation_strict _ _ DV (clean_tree f T _ WF NE d B)) G0) as (FU & _).
    assert (FB : Forall (fulfilled (needs_of fall_needs)) (bare (l_ws L) T)) by (rewrite B; constructor; [exact FU|constructor]).
    apply In_nth_error in J. destruct J as (k & J).
    assert (K1 : nth_error (dm_sets (needs_of fall_needs)) k = Some l) by (cbn [needs_of dm_sets]; rewrite nth_error_map, J; reflexivity).
    assert (K2 : In (ty f n, k) (dm_needs (needs_of fall_needs))).
    { cbn [needs_of dm_needs]. assert (LT : k < List.length fall_needs) by (apply nth_error_Some; congruence). clear - J LT. revert J LT. generalize fall_needs as r. intros r J LT.
      assert (X : forall (A B : Type) (u : list A) (v : list B) k a b, nth_error u k = Some a -> nth_error v k = Some b -> In (a, b) (combine u v)).
      { intros A B u. induction u as [|a u IH]; intros [|b v] [|k'] a' b' E1 E2; try discriminate; cbn in *; [injection E1 as <-; injection E2 as <-; left; reflexivity|right; exact (IH v k' a' b' E1 E2)]. }
      apply (X _ _ _ _ k); [rewrite nth_error_map, J; reflexivity|]. rewrite (nth_error_nth' _ 0) by (rewrite seq_length; exact LT). rewrite seq_nth by exact LT. reflexivity. }
    assert (WS : l_ws L (ty f n) = false).
    { rewrite W. assert (X : forallb (fun x => negb (fall_ws (fst x))) (dm_needs (needs_of fall_needs)) = true) by (vm_compute; reflexivity). rewrite forallb_forall in X. apply X in K2. apply negb_true_iff. exact K2. }
    destruct (needs_kid f T WF (l_ws L) (needs_of fall_needs) FB (ty f n) n k l (conj V eq_refl) WS K2 K1) as (u & JU & KU).
    unfold kid in KU. destruct (kids_of f u n) as [|j r] eqn:KO; [destruct KU; reflexivity|]. assert (X : In j (kids_of f u n)) by (rewrite KO; left; reflexivity). unfold kids_of in X. apply filter_In in X. destruct X as (JJ & Q). apply Nat.eqb_eq in Q.
    exists j. split; [exact JJ|congruence].
Qed.
Print Assumptions C81_fall.

(** The numbers behind the constants of the modules are those of the parsers. *)
Theorem C81_constants : forall names k s b, In names [fall_names; rust_names; bnf_names] -> In (k, (s, b)) names -> k = ERROR \/ const (types_of names) (FallLang.text_of s) = Some k.
Proof.
  intros names k s b J I.
  assert (C : forallb (fun names => forallb (fun x : nat * (string * bool) => if fst x =? ERROR then true else match const (types_of names) (FallLang.text_of (fst (snd x))) with Some k => k =? fst x | None => false end) names) [fall_names; rust_names; bnf_names] = true) by (vm_compute; reflexivity).
  rewrite forallb_forall in C. specialize (C names J). rewrite forallb_forall in C. specialize (C _ I). cbn [fst snd] in C. destruct (k =? ERROR) eqn:E; [left; apply Nat.eqb_eq; exact E|right].
  destruct (const (types_of names) (FallLang.text_of s)) as [j|]; [|discriminate C]. apply Nat.eqb_eq in C. rewrite C. reflexivity.
Qed.
Print Assumptions C81_constants.

(** ** Grammar files with errors *)

Definition the_node (x : ctx_ast) (s : string) : option ctx_node := List.find (fun y => bytes_eqb (cn_struct y) (FallLang.text_of s)) (ca_nodes x).
Definition the_method (x : ctx_ast) (y : ctx_node) (s : string) : option ctx_method := List.find (fun m => bytes_eqb (cm_name m) (FallLang.text_of s)) (methods_of x y).
(** What the method [m] of the type [s] gives on the node [n], if it is a value of that type *)
Definition ask (names : list (nat * (string * bool))) (x : ctx_ast) (f : file) (s m : string) (n : nat) : option (res answer) :=
  match the_node x s with
  | Some y => match the_method x y m, wrap (types_of names) x f 1 (cn_struct y) n with Some k, Ok (Some _) => Some (call (types_of names) x f 1 (cm_body k) n) | _, _ => None end
  | None => None
  end.
Definition shows_panic (txt s m : string) (n : nat) : bool :=
  match parse_file fall_lang 5000 (FallLang.text_of txt) with Ok (f, _) => match ask fall_names fall_ast f s m n with Some Panic => forallb (fun b => b <? 128) (FallLang.text_of txt) | _ => false end | _ => false end.
Lemma shown : forall txt s m n, shows_panic txt s m n = true -> exists f inc y k, whole_characters fall_lang (FallLang.text_of txt) /\ parse_file fall_lang 5000 (FallLang.text_of txt) = Ok (f, inc) /\
  In y (ca_nodes fall_ast) /\ cn_struct y = FallLang.text_of s /\ In k (methods_of fall_ast y) /\ cm_name k = FallLang.text_of m /\
  (exists v, wrap (types_of fall_names) fall_ast f 1 (cn_struct y) n = Ok (Some v)) /\ call (types_of fall_names) fall_ast f 1 (cm_body k) n = Panic.
Proof.
  intros txt s m n H. unfold shows_panic in H. destruct (parse_file fall_lang 5000 (FallLang.text_of txt)) as [(f & inc)| |]; try discriminate H. unfold ask in H.
  destruct (the_node fall_ast s) as [y|] eqn:Y; [|discriminate H]. destruct (the_method fall_ast y m) as [k|] eqn:K; [|discriminate H].
  destruct (wrap (types_of fall_names) fall_ast f 1 (cn_struct y) n) as [[v|]| |] eqn:W; try discriminate H. destruct (call (types_of fall_names) fall_ast f 1 (cm_body k) n) eqn:C; try discriminate H.
  unfold the_node in Y. apply List.find_some in Y. destruct Y as (JY & EY). apply beq in EY. unfold the_method in K. apply List.find_some in K. destruct K as (JK & EK). apply beq in EK.
  exists f, inc, y, k. split; [exact (dump_case _ H)|]. eauto 10.
Qed.

(** They do panic: a text that is being typed has values on which these methods find nothing. *)
Theorem C81_errors_refuted : forall s m, In (s, m) risky -> exists txt f inc y k n, whole_characters fall_lang txt /\ parse_file fall_lang 5000 txt = Ok (f, inc) /\
  In y (ca_nodes fall_ast) /\ cn_struct y = s /\ In k (methods_of fall_ast y) /\ cm_name k = m /\
  (exists v, wrap (types_of fall_names) fall_ast f 1 (cn_struct y) n = Ok (Some v)) /\ call (types_of fall_names) fall_ast f 1 (cm_body k) n = Panic.
Proof.
  assert (Q : forall a b txt n s m, (FallLang.text_of a, FallLang.text_of b) = (s, m) -> shows_panic txt a b n = true -> exists txt f inc y k n, whole_characters fall_lang txt /\ parse_file fall_lang 5000 txt = Ok (f, inc) /\
    In y (ca_nodes fall_ast) /\ cn_struct y = s /\ In k (methods_of fall_ast y) /\ cm_name k = m /\
    (exists v, wrap (types_of fall_names) fall_ast f 1 (cn_struct y) n = Ok (Some v)) /\ call (types_of fall_names) fall_ast f 1 (cm_body k) n = Panic).
  { intros a b txt n s m E H. assert (E1 : FallLang.text_of a = s) by congruence. assert (E2 : FallLang.text_of b = m) by congruence. rewrite <- E1, <- E2. destruct (shown txt a b n H) as (f & inc & y & k & R). exists (FallLang.text_of txt), f, inc, y, k, n. exact R. }
  intros s m J. unfold risky in J. cbn [map In fst snd] in J. destruct J as [E|[E|[E|[E|[E|[E|[E|[]]]]]]]].
  - apply (Q _ _ "rule a"%string 1 s m E). vm_compute. reflexivity.
  - apply (Q _ _ "verbatim"%string 1 s m E). vm_compute. reflexivity.
  - apply (Q _ _ "ast { node"%string 6 s m E). vm_compute. reflexivity.
  - apply (Q _ _ "ast { node"%string 6 s m E). vm_compute. reflexivity.
  - apply (Q _ _ "ast { class"%string 6 s m E). vm_compute. reflexivity.
  - apply (Q _ _ "ast { trait"%string 6 s m E). vm_compute. reflexivity.
  - apply (Q _ _ "ast { trait"%string 6 s m E). vm_compute. reflexivity.
Qed.
Print Assumptions C81_errors_refuted.

(** ** The lists of BNF *)
Definition real_bnf : language := mkLang (regex_lexer ascii_U longest one_char bnf_rules) bnf_grammar bnf_ws (fun _ _ _ => 0).
Lemma bnf_speaks : speaks bnf_grammar bnf_ws bnf_names real_bnf /\ (forall s, s <> [] -> tk_ty (l_lexer real_bnf s) <= 104) /\ forall txt, utf8 txt -> whole_characters real_bnf txt.
Proof.
  destruct (C71_named _ _ _ _ ascii_U longest one_char (fun _ _ _ => 0) nm_bnf lx_bnf ascii_U_ok longest_picks one_char_ok ltac:(intros; apply Nat.le_0_l)) as (A & B). split; [exact A|]. split; [|exact B].
  destruct (C71_shipped _ _ _ _ ascii_U longest one_char lx_bnf ascii_U_ok longest_picks one_char_ok) as (_ & _ & TY & _). intros s _. change (l_lexer real_bnf) with (regex_lexer ascii_U longest one_char bnf_rules).
  destruct (TY s) as [X|X]; [rewrite X; unfold ERROR; lia|]. assert (C : forallb (fun t => t <=? 104) (map r_ty bnf_rules) = true) by (vm_compute; reflexivity). rewrite forallb_forall in C. apply Nat.leb_le. exact (C _ X).
Qed.

Lemma bnf_lacks : forall D tab, table_ok D bnf_grammar tab = true -> (exists i, get tab 0 no_args = Some i) -> bnf_ws (dm_avoiding D) = false -> Forall (fun t => bnf_ws t = false) (dm_avoided D) ->
  forall L fuel txt f inc, speaks bnf_grammar bnf_ws bnf_names L -> parse_file L fuel txt = Ok (f, inc) -> no_error_nodes f ->
  exists T, wf_file f T /\ forall n c, is_a f (dm_avoiding D) n -> In c (kids f n) -> ~ In (ty f c) (dm_avoided D).
Proof.
  intros D tab OK (i & G0) WA WL L fuel txt f inc [NM G W P BL LB _] H NE. destruct (C28_shipped bnf_grammar sh_bnf) as ((c0 & WFG) & PL).
  assert (PS : proper_spellings (l_g L) (l_ws L)) by (rewrite G; apply (spelled_ok _ bnf_ws); [vm_compute; reflexivity|exact W]).
  destruct (parsed L c0 fuel txt f inc ltac:(rewrite G; exact WFG) ltac:(rewrite G; exact PL) PS P (fun b r E => blank_is b (BL b r E)) LB H) as (T & d & toks & WF & TX & B & DV & _). rewrite G in *. exists T. split; [exact WF|].
  destruct (table_tree D bnf_grammar tab OK d i (DeriveProofs.derivation_strict _ _ DV (clean_tree f T _ WF NE d B)) G0) as (FU & _).
  assert (FB : Forall (fulfilled D) (bare (l_ws L) T)) by (rewrite B; constructor; [exact FU|constructor]).
  intros n c (V & E) J I. destruct (node_at f T WF n V) as (p & pa & x & A). destruct (kid_tree f T WF _ _ _ _ _ A J) as (cc & JC & TC). pose proof (CompleteProofs.node_ty f T WF _ _ _ _ A) as TY. rewrite E in TY.
  destruct (fulfils_at T (l_ws L) D FB _ _ _ _ A) as (_ & LK); [rewrite <- TY, W; exact WA|]. specialize (LK (eq_sym TY)). rewrite <- TC in I. rewrite Forall_forall in WL.
  apply (lacks_child (l_ws L) _ _ cc LK JC); [rewrite W; exact (WL _ I)|exact I].
Qed.

(** In a text without errors no production has alternatives and no alternative has symbols, as far as the accessors go: the grammar puts nodes in between. *)
Theorem C81_bnf_lists_refuted : forall L fuel txt f inc, speaks bnf_grammar bnf_ws bnf_names L -> parse_file L fuel txt = Ok (f, inc) -> no_error_nodes f ->
  (forall n, is_a f 106 n -> ask bnf_names bnf_ast f "Prod" "alts" n = Some (Ok (RMany []))) /\
  (forall n, is_a f 108 n -> ask bnf_names bnf_ast f "Alt" "symbols" n = Some (Ok (RMany []))).
Proof.
  intros L fuel txt f inc SP H NE.
  assert (Q : forall T y k st t cs n, wf_file f T -> accept (types_of bnf_names) bnf_ast 1 (cn_struct y) = Some [st] -> cm_body k = AChild Many t -> accept (types_of bnf_names) bnf_ast 1 t = Some cs ->
    is_a f st n -> (forall c, In c (kids f n) -> ~ In (ty f c) cs) ->
    (exists v, wrap (types_of bnf_names) bnf_ast f 1 (cn_struct y) n = Ok (Some v)) /\ call (types_of bnf_names) bnf_ast f 1 (cm_body k) n = Ok (RMany [])).
  { intros T y k st t cs n WF A1 -> A2 (V & E) NO. split.
    - destruct (accept_wrap (types_of bnf_names) bnf_ast f n V 1 _ _ A1) as (r & W & I). destruct r as [v|]; [exists v; exact W|]. exfalso. assert (X : In (ty f n) [st]) by (left; symmetry; exact E). apply I in X. apply X. reflexivity.
    - cbn [call]. destruct (accept_children (types_of bnf_names) bnf_ast f T WF 1 t cs A2 n V) as (vs & -> & I). cbn [bind]. destruct vs as [|v vs]; [reflexivity|]. exfalso. destruct (proj1 I) as (c & J & X); [discriminate|]. exact (NO c J X). }
  split; intros n A.
  - destruct (bnf_lacks prod_lacks prod_table prod_ok ltac:(eexists; vm_compute; reflexivity) eq_refl ltac:(repeat constructor) L fuel txt f inc SP H NE) as (T & WF & NO).
    unfold ask. destruct (the_node bnf_ast "Prod") as [y|] eqn:Y; [|discriminate Y]. destruct (the_method bnf_ast y "alts") as [k|] eqn:K; [|vm_compute in Y; injection Y as <-; discriminate K].
    assert (EY : accept (types_of bnf_names) bnf_ast 1 (cn_struct y) = Some [106]) by (vm_compute in Y; injection Y as <-; vm_compute; reflexivity).
    assert (EK : cm_body k = AChild Many (FallLang.text_of "Alt")) by (vm_compute in Y; injection Y as <-; vm_compute in K; injection K as <-; reflexivity).
    destruct (Q T y k 106 (FallLang.text_of "Alt") [108] n WF EY EK ltac:(vm_compute; reflexivity) A (fun c => NO n c A)) as ((v & ->) & ->). reflexivity.
  - destruct (bnf_lacks alt_lacks alt_table alt_ok ltac:(eexists; vm_compute; reflexivity) eq_refl ltac:(repeat constructor) L fuel txt f inc SP H NE) as (T & WF & NO).
    unfold ask. destruct (the_node bnf_ast "Alt") as [y|] eqn:Y; [|discriminate Y]. destruct (the_method bnf_ast y "symbols") as [k|] eqn:K; [|vm_compute in Y; injection Y as <-; discriminate K].
    assert (EY : accept (types_of bnf_names) bnf_ast 1 (cn_struct y) = Some [108]) by (vm_compute in Y; injection Y as <-; vm_compute; reflexivity).
    assert (EK : cm_body k = AChild Many (FallLang.text_of "Symbol")) by (vm_compute in Y; injection Y as <-; vm_compute in K; injection K as <-; reflexivity).
    destruct (Q T y k 108 (FallLang.text_of "Symbol") [103; 104] n WF EY EK ltac:(vm_compute; reflexivity) A (fun c => NO n c A)) as ((v & ->) & ->). reflexivity.
Qed.
Print Assumptions C81_bnf_lists_refuted.

(** ** The languages on some texts *)
Definition in_text (L : language) (s : string) (p : file -> bool) : bool := match parse_file L 5000 (FallLang.text_of s) with Ok (f, _) => p f | _ => false end.
Definition gives (o : option (res answer)) (p : answer -> bool) : bool := match o with Some (Ok a) => p a | _ => false end.
Definition is_text (s : string) (a : answer) : bool := match a with RText b => bytes_eqb b (FallLang.text_of s) | _ => false end.

(** S -> a | b *)
Example C81_bnf_case : speaks bnf_grammar bnf_ws bnf_names real_bnf /\ (forall s, s <> [] -> tk_ty (l_lexer real_bnf s) <= 104) /\ whole_characters real_bnf (FallLang.text_of "S -> a | b") /\
  in_text real_bnf "S -> a | b" (fun f => no_error_nodes_b f && (ty f 1 =? 106) &&
    gives (ask bnf_names bnf_ast f "Grammar" "productions" 0) (fun a => match a with RMany [AStruct _ 1] => true | _ => false end) &&
    gives (ask bnf_names bnf_ast f "Prod" "head" 1) (fun a => match a with RAst (AStruct _ 2) => true | _ => false end) &&
    gives (ask bnf_names bnf_ast f "Prod" "alts" 1) (fun a => match a with RMany [] => true | _ => false end)) = true.
Proof.
  destruct bnf_speaks as (A & B & C). split; [exact A|]. split; [exact B|]. split; [apply C; apply ascii_utf8; apply Forall_forall; intros b J; cbn in J; lia|]. vm_compute. reflexivity.
Qed.

Example C81_rust_case : speaks_rust rust_lang /\ whole_characters rust_lang (FallLang.text_of "fn f<'a>() {}") /\
  in_text rust_lang "fn f<'a>() {}" (fun f => existsb (fun n => gives (ask rust_names rust_ast f "LifetimeParameter" "lifetime" n) (is_text "'a")) (seq 0 (List.length (f_nodes f))) &&
    existsb (fun n => gives (ask rust_names rust_ast f "FnDef" "name" n) (fun a => match a with RSome b => is_text "f" b | _ => false end)) (seq 0 (List.length (f_nodes f)))) = true.
Proof.
  split; [exact C60_rust_lang|]. split; [apply rust_ascii; apply Forall_forall; intros b J; cbn in J; lia|]. vm_compute. reflexivity.
Qed.

Example C81_fall_case : speaks_fall fall_lang /\ yields_tokens fall_lang /\ whole_characters fall_lang (FallLang.text_of "ast { node a { x b } }") /\
  in_text fall_lang "ast { node a { x b } }" (fun f => no_error_nodes_b f && existsb (fun n => gives (ask fall_names fall_ast f "AstNodeDef" "name" n) (is_text "a")) (seq 0 (List.length (f_nodes f)))) = true.
Proof.
  split; [exact C52_fall_lang|]. split; [exact fall_yields|]. split; [apply dump_case; vm_compute; reflexivity|]. vm_compute. reflexivity.
Qed.
