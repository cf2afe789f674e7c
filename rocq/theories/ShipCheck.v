(** Comparing what the model generates with the generated parsers of the repository. *)
From Coq Require Import List Arith Bool Lia Ascii String.
From Verif Require Import Base BaseFacts TextModel TreeModel TreeSpec TreeProofs FileEditSpec SearchModel SearchProofs DbModel GrammarModel ParserModel ConvertModel AnalysisModel AnalysisSpec
  RefModel RefSpec RefProofs CodegenModel CodegenSpec FallLang FallCheck.
Import ListNotations.
Open Scope list_scope.

(** The answers of the analysis with the three tables of the file computed once. *)
Fixpoint memo (n : nat) (f : file) (syn lex ctx : res value) (k : key) : res value :=
  match k with
  | QSyn => syn
  | QLex => lex
  | QCtx => ctx
  | _ => match n with 0 => OutOfFuel | S n => run_prog (memo n f syn lex ctx) (fall_exec f k) end
  end.

Lemma run_prog_mono : forall (g h : key -> res value) p v, (forall k v, g k = Ok v -> h k = Ok v) -> run_prog g p = Ok v -> run_prog h p = Ok v.
Proof.
  intros g h p. induction p as [x ds|k c IH|]; intros v H E; cbn [run_prog] in *; [exact E| |discriminate E].
  destruct (g k) as [x| |] eqn:G; cbn in E; try discriminate E. rewrite (H k x G). cbn. exact (IH x v H E).
Qed.
Lemma direct_mono : forall f n k v, direct n f k = Ok v -> direct (S n) f k = Ok v.
Proof.
  intros f n. induction n as [|n IH]; intros k v E; [discriminate E|]. cbn [direct] in E |- *.
  exact (run_prog_mono _ _ _ _ IH E).
Qed.
Lemma direct_mono_le : forall f n m k v, n <= m -> direct n f k = Ok v -> direct m f k = Ok v.
Proof. intros f n m k v L. induction L as [|m L IH]; intros E; [exact E|]. apply direct_mono. exact (IH E). Qed.

Lemma memo_direct : forall f syn lex ctx, syn = direct 4 f QSyn -> lex = direct 4 f QLex -> ctx = direct 4 f QCtx ->
  forall n, n <= 4 -> forall k v, direct n f k = Ok v -> memo n f syn lex ctx k = Ok v.
Proof.
  intros f syn lex ctx -> -> ->. induction n as [|n IH]; intros L k v E; [discriminate E|].
  assert (X : direct 4 f k = Ok v) by exact (direct_mono_le _ _ _ _ _ L E).
  destruct k; cbn [memo]; try exact X; cbn [direct] in E; exact (run_prog_mono _ _ _ _ (IH ltac:(lia)) E).
Qed.
Lemma honest_memo : forall f T syn lex ctx, wf_file f T -> char_tree (f_text f) T -> complete f ->
  syn = direct 4 f QSyn -> lex = direct 4 f QLex -> ctx = direct 4 f QCtx -> honest f (memo 4 f syn lex ctx).
Proof.
  intros f T syn lex ctx WF CT CO ES EL EC k AK. destruct (direct_honest f T WF CT CO k AK) as (v & E & A).
  exists v. split; [exact (memo_direct f syn lex ctx ES EL EC 4 (le_n 4) k v E)|exact A].
Qed.

Definition blocks_b (f : file) : bool := forallb (fun r => match exprs f r with b :: _ => ty f b =? BLOCK_EXPR | [] => false end) (rules f).
Lemma blocks_check : forall f, blocks_b f = true -> block_bodies f.
Proof.
  intros f H r J. pose proof (proj1 (forallb_forall _ _) H r J) as X. cbn beta in X. destruct (exprs f r) as [|b l]; [discriminate X|]. apply Nat.eqb_eq in X. exists b, l. auto.
Qed.

(** [regex::escape]: a backslash before each of \.+*?()|[]{}^$#&-~ *)
Definition escape (s : bytes) : bytes :=
  flat_map (fun b => if existsb (Nat.eqb b) [92; 46; 43; 42; 63; 40; 41; 124; 91; 93; 123; 125; 94; 36; 35; 38; 45; 126] then [92; b] else [b]) s.
Definition space (b : nat) : bool := existsb (Nat.eqb b) [32; 9; 10; 13].
Fixpoint trim_start (s : bytes) : bytes := match s with b :: r => if space b then trim_start r else s | [] => [] end.
Definition trim (s : bytes) : bytes := rev (trim_start (rev (trim_start s))).
(** The tool that writes generated files drops empty lines. *)
Fixpoint no_blank_lines (s : bytes) : bytes :=
  match s with
  | [] => []
  | b :: r => match r with c :: _ => if (b =? 10) && (c =? 10) then no_blank_lines r else b :: no_blank_lines r | [] => [b] end
  end.
Definition same (s : bytes) : bytes := s.

Definition the_context (o : res (option context)) : context :=
  match o with Ok (Some c) => c | _ => mkContext [] [] [] None None end.

(** What is read off a generated parser: constants and whether they are skipped, the lexer rules, the verbatim code and
    the accessors. *)
Record parser_file : Type := mkParserFile {
  pf_types : list (bytes * bool);
  pf_lex : list ctx_lex_rule;
  pf_verbatim : option bytes;
  pf_ast : option ctx_ast }.
(** The class variants appear only by the name of their type. *)
Definition shown_class (c : ctx_class) : ctx_class := mkCtxClass (cc_enum c) (map (fun v => ([], snd v)) (cc_variants c)).
Definition shown (c : context) : parser_file :=
  mkParserFile (map (fun t => (scream (fst t), snd t)) (cx_types c))
    (map (fun r => mkCtxLex (scream (cl_ty r)) (cl_re r) (cl_fn r)) (cx_lex c))
    (match cx_verbatim c with Some v => Some (no_blank_lines v) | None => None end)
    (match cx_ast c with Some a => Some (mkCtxAst (ca_nodes a) (map shown_class (ca_classes a)) (ca_traits a)) | None => None end).

(** The generator, run on the grammar file [f] with the answers of the analysis, yields the rule table [g] and the rest
    [p]. *)
Definition generates (f : file) (g : grammar) (p : parser_file) : Prop :=
  (wf_file f (tree_of f) /\ char_tree (f_text f) (tree_of f) /\ complete f) /\ block_bodies f /\
  exists ask c, honest f ask /\ generate f ask escape same trim = Ok (Some c) /\ grammar_of c = g /\ shown c = p.

(** ** Checking it in one computation *)
Definition bytes_dec : forall x y : bytes, {x = y} + {x <> y} := list_eq_dec Nat.eq_dec.
Definition opt_dec : forall A, (forall x y : A, {x = y} + {x <> y}) -> forall x y : option A, {x = y} + {x <> y}.
Proof. decide equality. Defined.
Definition pair_dec : forall A B, (forall x y : A, {x = y} + {x <> y}) -> (forall x y : B, {x = y} + {x <> y}) -> forall x y : A * B, {x = y} + {x <> y}.
Proof. decide equality. Defined.
Definition range_dec : forall x y : range, {x = y} + {x <> y}.
Proof. decide equality; apply Nat.eq_dec. Defined.
Definition node_dec : forall x y : node_data, {x = y} + {x <> y}.
Proof. decide equality; first [apply (list_eq_dec Nat.eq_dec)|apply (opt_dec _ Nat.eq_dec)|apply range_dec|apply Nat.eq_dec]. Defined.
Definition prefix_dec : forall x y : prefix, {x = y} + {x <> y}.
Proof. decide equality; apply Nat.eq_dec. Defined.
Definition infix_dec : forall x y : infix, {x = y} + {x <> y}.
Proof. decide equality; first [apply Bool.bool_dec|apply Nat.eq_dec]. Defined.
Definition pratt_dec : forall x y : pratt_table, {x = y} + {x <> y}.
Proof. decide equality; first [apply (list_eq_dec Nat.eq_dec)|apply (list_eq_dec prefix_dec)|apply (list_eq_dec infix_dec)]. Defined.
Definition expr_dec : forall x y : expr, {x = y} + {x <> y}.
Proof.
  decide equality; first [apply Bool.bool_dec|apply Nat.eq_dec|apply (list_eq_dec Nat.eq_dec)|apply (opt_dec _ Nat.eq_dec)|apply pratt_dec
    |apply (list_eq_dec (pair_dec _ _ Nat.eq_dec Nat.eq_dec))].
Defined.
Definition grammar_dec : forall x y : grammar, {x = y} + {x <> y}.
Proof. decide equality; first [apply (list_eq_dec expr_dec)|apply (list_eq_dec Nat.eq_dec)]. Defined.
Definition arity_dec : forall x y : arity, {x = y} + {x <> y}.
Proof. decide equality. Defined.
Definition accessor_dec : forall x y : accessor, {x = y} + {x <> y}.
Proof. decide equality; first [apply Bool.bool_dec|apply bytes_dec|apply arity_dec]. Defined.
Definition method_dec : forall x y : ctx_method, {x = y} + {x <> y}.
Proof. decide equality; first [apply bytes_dec|apply accessor_dec]. Defined.
Definition ctx_node_dec : forall x y : ctx_node, {x = y} + {x <> y}.
Proof. decide equality; first [apply bytes_dec|apply (list_eq_dec method_dec)]. Defined.
Definition ctx_class_dec : forall x y : ctx_class, {x = y} + {x <> y}.
Proof. decide equality; first [apply bytes_dec|apply (list_eq_dec (pair_dec _ _ bytes_dec bytes_dec))]. Defined.
Definition ctx_trait_dec : forall x y : ctx_trait, {x = y} + {x <> y}.
Proof. decide equality; first [apply bytes_dec|apply (list_eq_dec bytes_dec)|apply (list_eq_dec method_dec)]. Defined.
Definition ctx_lex_dec : forall x y : ctx_lex_rule, {x = y} + {x <> y}.
Proof. decide equality; first [apply bytes_dec|apply (opt_dec _ bytes_dec)]. Defined.
Definition ctx_ast_dec : forall x y : ctx_ast, {x = y} + {x <> y}.
Proof. decide equality; first [apply (list_eq_dec ctx_node_dec)|apply (list_eq_dec ctx_class_dec)|apply (list_eq_dec ctx_trait_dec)]. Defined.
Definition parser_file_dec : forall x y : parser_file, {x = y} + {x <> y}.
Proof.
  decide equality; first [apply (list_eq_dec (pair_dec _ _ bytes_dec Bool.bool_dec))|apply (list_eq_dec ctx_lex_dec)|apply (opt_dec _ bytes_dec)
    |apply (opt_dec _ ctx_ast_dec)].
Defined.

Definition is_left {A B : Prop} (d : {A} + {B}) : bool := if d then true else false.
Lemma is_left_true : forall (A B : Prop) (d : {A} + {B}), is_left d = true -> A.
Proof. intros A B [a|b] H; [exact a|discriminate H]. Qed.

Definition file_ok (f : file) : bool :=
  (let T := tree_of f in is_left (list_eq_dec node_dec (f_nodes f) (layout T None 0 0)) && (tlen T =? List.length (f_text f)))
  && forallb (fun b => b <? 128) (f_text f) && complete_b f && blocks_b f.
Definition rest_ok (f : file) (g : grammar) (p : parser_file) : bool :=
  let syn := direct 4 f QSyn in let lex := direct 4 f QLex in let ctx := direct 4 f QCtx in
  match generate f (memo 4 f syn lex ctx) escape same trim with
  | Ok (Some c) => is_left (grammar_dec (grammar_of c) g) && is_left (parser_file_dec (shown c) p)
  | _ => false
  end.
Definition ships_b (fuel : nat) (s : string) (g : grammar) (p : parser_file) : bool :=
  match parse_file fall_lang fuel (FallLang.text_of s) with Ok (f, _) => file_ok f && rest_ok f g p | _ => false end.

(** The grammar text [s] is parsed to a file from which the generator makes the rule table [g] and the rest [p]. *)
Definition ships (s : string) (g : grammar) (p : parser_file) : Prop :=
  exists fuel f l, parse_file fall_lang fuel (FallLang.text_of s) = Ok (f, l) /\ generates f g p.
Lemma ships_check : forall fuel s g p, ships_b fuel s g p = true -> ships s g p.
Proof.
  intros fuel s g p H. unfold ships_b in H. exists fuel. destruct (parse_file fall_lang fuel (FallLang.text_of s)) as [(f, l)| |] eqn:E; try discriminate H.
  exists f, l. split; [reflexivity|]. apply andb_true_iff in H. destruct H as (F & R). unfold file_ok in F. rewrite !andb_true_iff in F.
  destruct F as ((((F1 & F2) & F3) & F4) & F5). apply is_left_true in F1. apply Nat.eqb_eq in F2.
  assert (W : wf_file f (tree_of f)) by (apply wf_check; assumption).
  assert (C : char_tree (f_text f) (tree_of f)).
  { apply ascii_tree; [exact W|]. apply Forall_forall. intros b J. apply Nat.ltb_lt. exact (proj1 (forallb_forall _ _) F3 b J). }
  assert (K : complete f) by (apply complete_check; exact F4).
  split; [auto|]. split; [apply blocks_check; exact F5|]. unfold rest_ok in R. cbv zeta in R.
  set (ask := memo 4 f (direct 4 f QSyn) (direct 4 f QLex) (direct 4 f QCtx)) in R.
  destruct (generate f ask escape same trim) as [[c|]| |] eqn:G; try discriminate R.
  apply andb_true_iff in R. destruct R as (R1 & R2). apply is_left_true in R1. apply is_left_true in R2.
  exists ask, c. split; [apply (honest_memo f (tree_of f)); auto|auto].
Qed.
