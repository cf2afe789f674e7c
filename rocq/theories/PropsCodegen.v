(** C38 and C50: the parser generator. *)
From Coq Require Import List Arith Bool Lia String Permutation.
From Verif Require Import Base BaseFacts TextModel TreeModel SearchModel DbModel GrammarModel AnalysisModel RefModel CodegenModel TextSpec TreeSpec FileEditSpec IndexSpec
  AnalysisSpec RefSpec CodegenSpec AstGenSpec ViewProofs MeansFacts AnalysisProofs CollectProofs AnalysisFacts RefProofs CodegenProofs AstGenProofs FallLang FallCheck GrammarData PropsAnalysis.
Import ListNotations.
Open Scope list_scope.

(** * C38: the generated parser *)

(** What the generator writes is what the grammar file says: the types, the table of the rules (the number of a rule is
    its place in the file), the patterns of the tokens and the verbatim code.  Nothing in the table dangles. *)
Theorem C38_faithful : forall f T ask escape debug trim c,
  wf_file f T -> char_tree (f_text f) T -> complete f -> block_bodies f -> honest f ask ->
  generate f ask escape debug trim = Ok (Some c) ->
  cx_types c = type_list f /\ table_of_file f (cx_rules c) /\
  Forall2 (lex_rule_is f escape debug) (matched_tokens f) (cx_lex c) /\ verbatim_is f trim (cx_verbatim c) /\
  closed f (cx_rules c) /\ List.length (rules f) <= List.length (cx_rules c).
Proof.
  intros f T ask escape debug trim c WF CT CO BB HON E.
  destruct (decided_some _ _ _ _ _ (generate_ok f T WF CT CO ask HON BB escape debug trim) E) as (_ & A & B & C & D & F & G & _). auto 10.
Qed.
Print Assumptions C38_faithful.

(** The generator succeeds exactly on the files it can express; otherwise it reports an error or panics, and it always
    ends. *)
Theorem C38_accepts : forall f T ask escape debug trim,
  wf_file f T -> char_tree (f_text f) T -> complete f -> block_bodies f -> honest f ask ->
  ((exists c, generate f ask escape debug trim = Ok (Some c)) <-> accepted f escape trim) /\
  generate f ask escape debug trim <> OutOfFuel.
Proof.
  intros f T ask escape debug trim WF CT CO BB HON. pose proof (generate_ok f T WF CT CO ask HON BB escape debug trim) as D.
  split; [|exact (decided_fuel _ _ _ _ D)]. split.
  - intros (c & E). exact (proj1 (decided_some _ _ _ _ _ D E)).
  - intros A. destruct D as [(_ & c & E & _)|(N & _)]; [exists c; exact E|destruct (N A)].
Qed.
Print Assumptions C38_accepts.

(** If the analysis reports no error, the rules can be compiled, up to what it does not look at. *)
Theorem C38_clean : forall f T ask escape debug trim,
  wf_file f T -> char_tree (f_text f) T -> complete f -> block_bodies f -> honest f ask ->
  no_errors f -> usable f ->
  kid f TOKENIZER_DEF 0 <> None -> (forall t, In t (matched_tokens f) -> (exists b, pattern f escape t b) /\ exists o, custom f t o) ->
  (exists o, verbatim_is f trim o) -> (forall a, kid f AST_DEF 0 = Some a -> ast_fits f a) ->
  exists c, generate f ask escape debug trim = Ok (Some c).
Proof.
  intros f T ask escape debug trim WF CT CO BB HON NE US TD TP VB AF.
  apply (proj1 (C38_accepts f T ask escape debug trim WF CT CO BB HON)).
  split; [exact (clean_rules f T WF CT CO ask HON BB NE US)|]. split; [split; assumption|]. split; assumption.
Qed.
Print Assumptions C38_clean.

(** * C50: the generated accessors *)

(** The typed view: for each node, class and trait definition its type, its methods and, for a trait, the nodes that name
    it; each method returns what its selector selects. *)
Theorem C50_accessors : forall f T ask escape debug trim c,
  wf_file f T -> char_tree (f_text f) T -> complete f -> block_bodies f -> honest f ask ->
  generate f ask escape debug trim = Ok (Some c) ->
  match kid f AST_DEF 0, cx_ast c with Some a, Some x => ast_is f a x | None, None => True | _, _ => False end.
Proof.
  intros f T ask escape debug trim c WF CT CO BB HON E.
  exact (proj2 (proj2 (proj2 (proj2 (proj2 (proj2 (proj2 (decided_some _ _ _ _ _ (generate_ok f T WF CT CO ask HON BB escape debug trim) E)))))))).
Qed.
Print Assumptions C50_accessors.

(** Names have one camel-case form; there is none exactly if a word between underscores is empty or starts with a longer
    character, and then the generator panics. *)
Theorem C50_camel : forall s,
  (forall c, camel s = Ok c <-> camel_case s c) /\ (camel s = Panic <-> ~ nameable s) /\
  (nameable s <-> forall ws w, words s ws -> In w ws ->
     exists b r, w = b :: r /\ match r with x :: _ => is_cont x = false | [] => True end) /\
  (exists ws, words s ws /\ forall ws', words s ws' -> ws' = ws) /\
  forall t, scream s = t <-> screams s t.
Proof.
  intros s. destruct (camel_cases s) as [(c & E & C)|(E & N)].
  - split; [|split; [|split; [|split]]].
    + intros c'. rewrite E. split; [intros H; injection H as <-; exact C|intros C'; f_equal; exact (camel_fun s c c' C C')].
    + rewrite E. split; [discriminate|]. intros H. destruct (H (ex_intro _ c C)).
    + split; [|intros _; exists c; exact C]. intros _ ws w W J. destruct C as (ws' & cs & W' & F & _). rewrite (words_fun _ _ _ W W') in J.
      clear -F J. induction F as [|x y l m (b & u & r & -> & _ & _ & H) F IH]; [destruct J|]. destruct J as [<-|J]; [exists b, r; auto|auto].
    + exists (split_underscore s []). split; [apply split_words|]. intros ws' W. exact (words_fun _ _ _ W (split_words s)).
    + intros t. split; [intros <-; apply scream_is|]. intros H. exact (forall2_fun _ _ _ _ _ _ capital_fun (scream_is s) H).
  - split; [|split; [|split; [|split]]].
    + intros c'. rewrite E. split; [discriminate|]. intros C'. destruct (N (ex_intro _ c' C')).
    + split; [intros _; exact N|intros _; exact E].
    + split; [intros H; destruct (N H)|]. intros H. exfalso. apply N.
      assert (X : forall l, (forall w, In w l -> exists b r, w = b :: r /\ match r with x :: _ => is_cont x = false | [] => True end) -> exists cs, Forall2 capitalised l cs).
      { intros l. induction l as [|w l IH]; intros HL; [exists []; constructor|]. destruct (IH (fun x J => HL x (or_intror J))) as (cs & F).
        destruct (HL w (or_introl eq_refl)) as (b & r & -> & HR). exists ((upper b :: r) :: cs). constructor; [|exact F]. exists b, (upper b), r. split; [reflexivity|].
        split; [apply upper_is|]. split; [reflexivity|exact HR]. }
      destruct (X (split_underscore s [])) as (cs & F); [intros w J; exact (H _ w (split_words s) J)|].
      exists (List.concat cs), (split_underscore s []), cs. split; [apply split_words|]. split; [exact F|reflexivity].
    + exists (split_underscore s []). split; [apply split_words|]. intros ws' W. exact (words_fun _ _ _ W (split_words s)).
    + intros t. split; [intros <-; apply scream_is|]. intros H. exact (forall2_fun _ _ _ _ _ _ capital_fun (scream_is s) H).
Qed.
Print Assumptions C50_camel.

(** * A grammar file *)
Definition calc := fall_file "tokenizer { plus '+' number r""\d+"" #[skip] ws r""\s+"" 'scan' #[contextual] and 'and' } pub rule file { <commit> <list expr '+'> <eof> } #[pratt] rule expr { sum | atom } #[bin(1)] pub rule sum { expr '+' expr } #[atom, cached] pub rule atom { number <enter 'in' word> | <not expr> } rule list(item, sep) { item {sep <is_in 'in'> item}* <prev_is atom>? } rule word { 'and' number? } #[replaces] pub rule paren { '+' expr } ast { node sum : has_expr { args expr* plus plus.text } node atom : has_expr { num number? } class expr { sum atom } trait has_expr { first_arg expr? } } verbatim r#""fn scan() {}""#".
Definition same (s : bytes) : bytes := s.

Example calc_complete : wf_file calc (tree_of calc) /\ char_tree (f_text calc) (tree_of calc) /\ complete calc.
Proof. file_facts. Qed.
Lemma honest_direct : forall f, wf_file f (tree_of f) /\ char_tree (f_text f) (tree_of f) /\ complete f -> honest f (direct 4 f).
Proof. intros f (W & C & K). exact (direct_honest f (tree_of f) W C K). Qed.

Definition blocks_b (f : file) : bool := forallb (fun r => match exprs f r with b :: _ => ty f b =? BLOCK_EXPR | [] => false end) (rules f).
Lemma blocks_check : forall f, blocks_b f = true -> block_bodies f.
Proof.
  intros f H r J. pose proof (proj1 (forallb_forall _ _) H r J) as X. cbn beta in X. destruct (exprs f r) as [|b l]; [discriminate X|]. apply Nat.eqb_eq in X. exists b, l. auto.
Qed.

(** The hypotheses of the theorems hold of it, and the generator succeeds with the table one expects: rule 0 is the node
    of type 5 with body 11, rule 1 the operator table, and so on. *)
Example C38_case : honest calc (direct 4 calc) /\ block_bodies calc /\
  exists c, generate calc (direct 4 calc) same same same = Ok (Some c) /\
    map (fun x => (FallLang.text_of (fst x), snd x)) [("plus", false); ("number", false); ("ws", true); ("and", false); ("file", false); ("sum", false); ("atom", false); ("paren", false)]%string = cx_types c /\
    cx_rules c =
      [EPub 5 11 false; EPratt (mkPratt [3] [] [mkInfix 6 12 1 true]); EPub 6 15 false; EPub 7 22 false; EOr [32]; EOr [36]; EPubReplace 8 39;
       EToken 1; ECall 4 [(0, 1); (1, 7)]; EEof; EAnd [8; 9] (Some 0); EOr [10]; EToken 1; EToken 1; EAnd [1; 13; 1] None; EOr [14]; EToken 2; EEnter 0 5;
       EAnd [16; 17] None; ENot 1; EAnd [19] None; EOr [18; 20]; ECached 21; EVar 0; EVar 1; EIsIn 0; EVar 0; EAnd [24; 25; 26] None; EOr [27]; ERep 28;
       EPrevIs [7]; EOpt 30; EAnd [23; 29; 31] None; EContextual 4 (FallLang.text_of "and"); EToken 2; EOpt 34; EAnd [33; 35] None; EToken 1; EAnd [37; 1] None; EOr [38]] /\
    cx_lex c = [mkCtxLex (FallLang.text_of "plus") (FallLang.text_of "+") None; mkCtxLex (FallLang.text_of "number") (FallLang.text_of "\d+") None;
                mkCtxLex (FallLang.text_of "ws") (FallLang.text_of "\s+") (Some (FallLang.text_of "scan"))] /\
    cx_verbatim c = Some (FallLang.text_of "fn scan() {}").
Proof.
  split; [exact (honest_direct calc calc_complete)|]. split; [apply blocks_check; vm_compute; reflexivity|].
  eexists. split; [vm_compute; reflexivity|]. do 3 (split; [vm_compute; reflexivity|]). vm_compute. reflexivity.
Qed.
Example C50_case : exists c x, generate calc (direct 4 calc) same same same = Ok (Some c) /\ cx_ast c = Some x /\
  map (fun n => (cn_struct n, cn_type n)) (ca_nodes x) = [(FallLang.text_of "Sum", FallLang.text_of "SUM"); (FallLang.text_of "Atom", FallLang.text_of "ATOM")] /\
  flat_map cn_methods (ca_nodes x) = [mkMethod (FallLang.text_of "args") (AChild Many (FallLang.text_of "Expr")); mkMethod (FallLang.text_of "plus") (AText false (FallLang.text_of "PLUS"));
    mkMethod (FallLang.text_of "num") (AToken true (FallLang.text_of "NUMBER"))] /\
  ca_classes x = [mkCtxClass (FallLang.text_of "Expr") [(FallLang.text_of "SUM", FallLang.text_of "Sum"); (FallLang.text_of "ATOM", FallLang.text_of "Atom")]] /\
  ca_traits x = [mkCtxTrait (FallLang.text_of "HasExpr") [mkMethod (FallLang.text_of "first_arg") (AChild Optional (FallLang.text_of "Expr"))] [FallLang.text_of "Sum"; FallLang.text_of "Atom"]].
Proof.
  eexists. eexists. split; [vm_compute; reflexivity|]. split; [vm_compute; reflexivity|]. do 3 (split; [vm_compute; reflexivity|]). vm_compute. reflexivity.
Qed.

(** It has no errors and is usable, so [C38_clean] applies to it. *)
Lemma clean_check : forall f fuel, wf_file f (tree_of f) /\ char_tree (f_text f) (tree_of f) /\ complete f ->
  match lone_result f [] fuel with Some l => forallb (fun d => match d_severity d with Error => false | Warning => true end) l | None => false end = true -> no_errors f.
Proof.
  intros f fuel (W & CT & CO) H ds out d R J. destruct (lone_result f [] fuel) as [l|] eqn:E; [|discriminate H].
  destruct (lone_case f (tree_of f) [] fuel (sort_diags l) W) as (ds' & R'); [intros k []|rewrite E; reflexivity|].
  pose proof (C36_same_diagnostics f (tree_of f) ds out ds' _ W CT CO R R') as P.
  assert (JL : In d l).
  { apply (Permutation_in d P) in J. exact (Permutation_in d (sort_diags_perm l) J). }
  pose proof (proj1 (forallb_forall _ _) H d JL) as X. cbn beta in X. destruct (d_severity d); [discriminate X|discriminate].
Qed.

Definition usable_b (f : file) : bool :=
  let all := seq 0 (List.length (f_nodes f)) in
  forallb (fun n => if ty f n =? CALL_EXPR then
      match name_of f n with
      | Some s => negb (bytes_eqb s s_commit) || (is_commit_part f n && match par f n with Some p => ty f p =? SEQ_EXPR | None => false end)
      | None => true
      end else negb (is_commit_part f n && is_expr (ty f n))) all &&
  forallb (fun n => negb (is_commit_part f n) || negb (ty f n =? CALL_EXPR) || match name_of f n with Some s => bytes_eqb s s_commit | None => false end) all &&
  forallb (fun r => match ty_name f r with
    | Ok (Some s) => existsb (fun x => bytes_eqb (fst x) s) (type_list f)
    | Ok None => negb (has_attr f r s_replaces)
    | _ => false end) (rules f) &&
  forallb (fun t => negb (has_attr f t s_contextual) || match token_text f t with Ok (Some _) => true | _ => false end) (tokens f) &&
  forallb (fun n => negb ((ty f n =? OPT_EXPR) || (ty f n =? REP_EXPR)) || match exprs f n with [] => false | _ => true end) all.

Lemma compilable_call : forall f e, compilable f e -> ty f e = CALL_EXPR -> exists k, call_is f e k /\ k <> CkCommit.
Proof.
  intros f e H E. destruct H as [e B _|e B _|e r B _|e p B _|e t B _ _|e a l B _ _|e k B C K|e k a B C K _|e k a b B C K _ _|e r args B C _|e rs B C _];
    try (rewrite B in E; discriminate E).
  - destruct B as [B|B]; rewrite B in E; discriminate E.
  - exists k. split; [exact C|]. destruct K as [->|[->|(c & ->)]]; discriminate.
  - exists k. split; [exact C|]. destruct K as [->|(c & [->| ->])]; discriminate.
  - exists k. split; [exact C|]. destruct K as [->|[->| ->]]; discriminate.
  - eexists. split; [exact C|discriminate].
  - eexists. split; [exact C|discriminate].
Qed.
Lemma usable_check : forall f T, wf_file f T -> char_tree (f_text f) T -> complete f ->
  (forall r, In r (rules f) -> compilable_rule f r) -> usable_b f = true -> usable f.
Proof.
  intros f T WF CT CO CR H. unfold usable_b in H. rewrite !andb_true_iff, !forallb_forall in H. destruct H as ((((H1 & H1') & H2) & H3) & H4).
  assert (ALL : forall n, valid f n -> In n (seq 0 (List.length (f_nodes f)))) by (intros n V; apply in_seq; unfold valid in V; lia).
  assert (TY : forall r s, In r (rules f) -> makes_type f r s -> ty_name f r = Ok (Some s)).
  { intros r s J MT. destruct (ty_name_ok f T WF CT CO r (proj1 (rules_in f T WF r J))) as (o & -> & O). destruct o as [s'|]; [|destruct (O s MT)].
    rewrite (makes_type_fun f r s s' MT O). reflexivity. }
  constructor.
  - intros n (V & E) N. specialize (H1 n (ALL n V)). cbn beta in H1. rewrite E, Nat.eqb_refl in H1. unfold named in N. rewrite N in H1.
    rewrite (proj2 (bytes_eqb_spec s_commit s_commit) eq_refl) in H1. cbn [negb orb] in H1. apply andb_true_iff in H1. destruct H1 as (A & B). split; [exact A|].
    destruct (par f n) as [p|]; [|discriminate B]. exists p. split; [reflexivity|apply Nat.eqb_eq; exact B].
  - intros r s J MT. specialize (H2 r J). cbn beta in H2. rewrite (TY r s J MT) in H2. apply existsb_exists in H2. destruct H2 as (x & JX & EX).
    apply bytes_eqb_spec in EX. pose proof (type_ref_is f s) as TR.
    destruct (type_ref (type_list f) s) as [i|] eqn:ER; [exists i; exact TR|]. exfalso. unfold type_ref in ER.
    pose proof (position_first _ (fun x => bytes_eqb (fst x) s) (type_list f)) as PF. destruct (position _ (type_list f)); [discriminate ER|].
    specialize (PF x JX). cbn beta in PF. rewrite EX, (proj2 (bytes_eqb_spec s s) eq_refl) in PF. discriminate PF.
  - intros r J HR. specialize (H2 r J). cbn beta in H2. destruct (ty_name_ok f T WF CT CO r (proj1 (rules_in f T WF r J))) as (o & E & O). rewrite E in H2.
    destruct o as [s|]; [exists s; exact O|]. rewrite HR in H2. discriminate H2.
  - intros t J HC. specialize (H3 t J). cbn beta in H3. rewrite HC in H3. cbn [negb orb] in H3.
    destruct (token_text_v f T WF CT t (proj1 (tokens_in f T WF t J))) as [(P & _)|(_ & R)]; [exact P|]. destruct R as [R|R]; rewrite R in H3; discriminate H3.
  - intros n A EE. assert (V : valid f n) by (destruct A as [A|A]; exact (proj1 A)). specialize (H4 n (ALL n V)). cbn beta in H4. rewrite EE in H4.
    destruct A as [(_ & E)|(_ & E)]; rewrite E in H4; cbn in H4; discriminate H4.
  - intros r b a J HP HB JA. destruct (CR r J) as (b' & l & EB & _ & _ & PR). rewrite EB in HB. injection HB as ->. destruct (PR HP) as (_ & AL).
    destruct (AL a JA) as (x & t & v & A & (s & MT & _) & VA & OP). exists x, s, v. split; [exact A|]. split; [exact MT|]. split; [exact VA|].
    intros op EO. specialize (OP op EO). destruct (is_commit_part f op) eqn:IC; [|reflexivity]. exfalso.
    assert (OPS : exists q, In op (exprs f q)).
    { destruct VA as (ds & PM). destruct v as [b'|op' p|op' p|op' p]; cbn [operator_of] in EO; try discriminate EO; injection EO as ->; inversion PM; subst;
        match goal with H : body_parts _ _ _ _ |- _ => destruct H as (_ & _ & q & _ & TQ & EQ) end; exists q; rewrite EQ; cbn [In]; auto. }
    destruct OPS as (q & JQ). destruct (exprs_in f T WF q op JQ) as (V & _ & XO). specialize (H1 op (ALL op V)). cbn beta in H1. rewrite IC, XO in H1.
    destruct (ty f op =? CALL_EXPR) eqn:E; [|discriminate H1]. specialize (H1' op (ALL op V)). cbn beta in H1'. rewrite IC, E in H1'. cbn [negb orb] in H1'.
    destruct (name_of f op) as [nm|] eqn:NM; [|discriminate H1']. apply bytes_eqb_spec in H1'. subst nm. apply Nat.eqb_eq in E.
    assert (CC : forall k, call_is f op k -> k = CkCommit).
    { intros k (ds & CM). pose proof (proj1 (call_means_fun f op _ _ _ _ CM (cm_commit f op NM))) as X. injection X as ->. reflexivity. }
    destruct (compilable_call f op OP E) as (k & CI & NK). exact (NK (CC k CI)).
Qed.

Example C38_clean_case : no_errors calc /\ usable calc /\ kid calc TOKENIZER_DEF 0 <> None /\
  (forall t, In t (matched_tokens calc) -> (exists b, pattern calc same t b) /\ exists o, custom calc t o) /\
  (exists o, verbatim_is calc same o) /\ exists a, kid calc AST_DEF 0 = Some a /\ ast_fits calc a.
Proof.
  split; [apply (clean_check calc 5000 calc_complete); vm_compute; reflexivity|].
  destruct calc_complete as (W & CT & CO). destruct C38_case as (HON & BB & c & E & _).
  destruct (proj1 (proj1 (C38_accepts calc (tree_of calc) (direct 4 calc) same same same W CT CO BB HON)) (ex_intro _ c E)) as (CR & (TD & TP) & VB & AF).
  split; [apply (usable_check calc (tree_of calc) W CT CO CR); vm_compute; reflexivity|]. split; [exact TD|]. split; [exact TP|]. split; [exact VB|].
  destruct (kid calc AST_DEF 0) as [a|] eqn:K; [exists a; auto|]. vm_compute in K. discriminate K.
Qed.

(** ** The accessors refer to what is generated *)

(** Each accessor mentions a type of the same typed view, or the constant of one of the types. *)
Definition refers_to (c : context) (x : ctx_ast) (a : accessor) : Prop :=
  match a with
  | AChild _ t => In t (map cn_struct (ca_nodes x)) \/ In t (map cc_enum (ca_classes x))
  | AText _ t | AToken _ t => exists s skipped, In (s, skipped) (cx_types c) /\ screams s t
  end.
Lemma forall2_left : forall A B (P : A -> B -> Prop) l m a, Forall2 P l m -> In a l -> exists b, In b m /\ P a b.
Proof.
  intros A B P l m a F. induction F as [|x y l m H F IH]; intros J; [destruct J|].
  destruct J as [<-|J]; [exists y; split; [left; reflexivity|exact H]|destruct (IH J) as (b & JB & HB); exists b; split; [right; exact JB|exact HB]].
Qed.
Lemma forall2_right : forall A B (P : A -> B -> Prop) l m b, Forall2 P l m -> In b m -> exists a, In a l /\ P a b.
Proof.
  intros A B P l m b F. induction F as [|x y l m H F IH]; intros J; [destruct J|].
  destruct J as [<-|J]; [exists x; split; [left; reflexivity|exact H]|destruct (IH J) as (a & JA & HA); exists a; split; [right; exact JA|exact HA]].
Qed.
Theorem C50_closed : forall f T ask escape debug trim c x m,
  wf_file f T -> char_tree (f_text f) T -> complete f -> block_bodies f -> honest f ask ->
  generate f ask escape debug trim = Ok (Some c) -> cx_ast c = Some x ->
  In m (flat_map cn_methods (ca_nodes x)) \/ In m (flat_map ct_methods (ca_traits x)) ->
  refers_to c x (cm_body m).
Proof.
  intros f T ask escape debug trim c x m WF CT CO BB HON E AX JM.
  pose proof (C50_accessors f T ask escape debug trim c WF CT CO BB HON E) as A. rewrite AX in A. destruct (kid f AST_DEF 0) as [a|] eqn:KA; [|destruct A].
  destruct (C38_faithful f T ask escape debug trim c WF CT CO BB HON E) as (TY & _). destruct A as (AN & AC & AT).
  assert (MD : exists n, method_done f n m).
  { destruct JM as [J|J]; apply in_flat_map in J; destruct J as (y & JY & JM').
    - destruct (forall2_right _ _ _ _ _ _ AN JY) as (n & _ & _ & _ & F). destruct (forall2_right _ _ _ _ _ _ F JM') as (k & _ & H). exists k. exact H.
    - destruct (forall2_right _ _ _ _ _ _ AT JY) as (n & _ & _ & F & _). destruct (forall2_right _ _ _ _ _ _ F JM') as (k & _ & H). exists k. exact H. }
  destruct MD as (n & _ & d & MM & AI).
  assert (TOK : forall t k, In t (tokens f) -> constant f t k -> exists s skipped, In (s, skipped) (cx_types c) /\ screams s k).
  { intros t k JT (s & N & S1). exists s, (has_attr f t s_skip). split; [|exact S1]. rewrite TY. unfold type_list. apply in_or_app. left.
    apply in_flat_map. exists t. split; [exact JT|]. rewrite N. left. reflexivity. }
  inversion AI; subst; cbn [refers_to].
  - apply (TOK t); [|assumption]. inversion MM; subst. match goal with H : selects _ _ _ |- _ => inversion H; subst end. eapply first_such_in. eassumption.
  - apply (TOK t); [|assumption]. inversion MM; subst. match goal with H : selects _ _ _ |- _ => inversion H; subst end. eapply first_such_in. eassumption.
  - left. inversion MM; subst. match goal with H : selects _ _ _ |- _ => inversion H; subst end.
    match goal with H : first_such _ _ _ |- _ => pose proof (first_such_in _ _ _ _ H) as JX end. unfold ast_parts in JX. rewrite KA in JX.
    destruct (forall2_left _ _ _ _ _ _ AN JX) as (y & JY & TN & _). apply in_map_iff. exists y. split; [|exact JY]. eapply type_name_fun; eassumption.
  - right. inversion MM; subst. match goal with H : selects _ _ _ |- _ => inversion H; subst end.
    match goal with H : first_such _ _ _ |- _ => pose proof (first_such_in _ _ _ _ H) as JX end. unfold ast_parts in JX. rewrite KA in JX.
    destruct (forall2_left _ _ _ _ _ _ AC JX) as (y & JY & TN & _). apply in_map_iff. exists y. split; [|exact JY]. eapply type_name_fun; eassumption.
Qed.
Print Assumptions C50_closed.

(** * What does not hold *)
Definition refused (s : string) : Prop :=
  let f := fall_file s in
  no_errors f /\ (wf_file f (tree_of f) /\ char_tree (f_text f) (tree_of f) /\ complete f) /\ block_bodies f /\
  rejects (generate f (direct 4 f) same same same).
Ltac refuse :=
  let F := fresh in
  match goal with |- refused ?s => assert (F : wf_file (fall_file s) (tree_of (fall_file s)) /\ char_tree (f_text (fall_file s)) (tree_of (fall_file s)) /\ complete (fall_file s)) by file_facts end;
  split; [apply (clean_check _ 4000 F); vm_compute; reflexivity|]; split; [exact F|]; split; [apply blocks_check; vm_compute; reflexivity|];
  (left; vm_compute; reflexivity) || (right; vm_compute; reflexivity).

(** "No errors from the analysis, so the generator succeeds" is false.  Each of these files has no error, and the
    generator panics: a commit written with spaces, a commit that is not part of a sequence, a test for a rule whose type
    does not exist, a private rule that replaces, a definition whose name starts with an underscore, a method for all
    tokens of a type; on the last it reports an error: an alternative that is neither an atom nor an operator. *)
Theorem C38_no_errors_refuted :
  refused "tokenizer { a 'a' } pub rule file { 'a' < commit > 'a' }" /\
  refused "tokenizer { a 'a' } pub rule file { 'a' <commit>? }" /\
  refused "tokenizer { a 'a' } pub rule file { x <prev_is x> } #[type(nope)] pub rule x { 'a' }" /\
  refused "tokenizer { a 'a' } pub rule file { x } #[replaces] rule x { 'a' }" /\
  refused "tokenizer { a 'a' } pub rule file { 'a' } ast { node _file { } }" /\
  refused "tokenizer { a 'a' } pub rule file { 'a' } ast { node file { aa a* } }" /\
  refused "tokenizer { a 'a' } pub rule file { e } #[pratt] rule e { x } pub rule x { 'a' }".
Proof. repeat (split; [refuse|]). refuse. Qed.
Print Assumptions C38_no_errors_refuted.

Definition generated (s : string) (c : context) : Prop :=
  let f := fall_file s in no_errors f /\ complete f /\ block_bodies f /\ generate f (direct 4 f) same same same = Ok (Some c).
Ltac generates :=
  let F := fresh in
  match goal with |- generated ?s _ => assert (F : wf_file (fall_file s) (tree_of (fall_file s)) /\ char_tree (f_text (fall_file s)) (tree_of (fall_file s)) /\ complete (fall_file s)) by file_facts end;
  split; [apply (clean_check _ 4000 F); vm_compute; reflexivity|]; split; [exact (proj2 (proj2 F))|]; split; [apply blocks_check; vm_compute; reflexivity|]; vm_compute; reflexivity.

(** "Every public rule makes a node" is false: with a type that does not exist, nothing is reported and the rule is its
    bare body, entry 1 of this table. *)
Theorem C38_public_rule_refuted : exists c,
  generated "tokenizer { a 'a' } pub rule file { x } #[type(nope)] pub rule x { 'a' }" c /\ nth_error (cx_rules c) 1 = Some (EOr [5]).
Proof. eexists. split; [generates|]. vm_compute. reflexivity. Qed.
Print Assumptions C38_public_rule_refuted.

(** "Different rules and tokens get different types" is false: a rule and a token of the same name are accepted, and the
    nodes of the rule get the type of the token. *)
Theorem C38_same_type_refuted : exists c,
  generated "tokenizer { a 'a' } pub rule a { 'a' } pub rule file { a }" c /\
  nth_error (cx_rules c) 0 = Some (EPub 1 4 false) /\ nth_error (cx_rules c) 2 = Some (EToken 1) /\ map fst (cx_types c) = [[97]; [97]; [102; 105; 108; 101]].
Proof. eexists. split; [generates|]. split; [vm_compute; reflexivity|]. split; vm_compute; reflexivity. Qed.
Print Assumptions C38_same_type_refuted.

(** "The whole alternative counts" is false: in an expression rule only the first part of an alternative does, and
    nothing is reported about the rest. *)
Theorem C38_alternative_refuted : exists c c',
  generated "tokenizer { a 'a' } pub rule file { e } #[pratt] rule e { x 'a' } #[atom] pub rule x { 'a' }" c /\
  generated "tokenizer { a 'a' } pub rule file { e } #[pratt] rule e { x } #[atom] pub rule x { 'a' }" c' /\ c = c'.
Proof. eexists. eexists. split; [generates|]. split; [generates|]. vm_compute. reflexivity. Qed.
Print Assumptions C38_alternative_refuted.

(** "Each node definition has a type" is false: a definition of a node no rule makes is accepted, and its constant is
    none of the types. *)
Theorem C50_unknown_node_refuted : exists c x n,
  generated "tokenizer { a 'a' } pub rule file { 'a' } ast { node nothing { } }" c /\ cx_ast c = Some x /\ In n (ca_nodes x) /\
  forall s b, In (s, b) (cx_types c) -> ~ screams s (cn_type n).
Proof.
  eexists. eexists. eexists. split; [generates|]. split; [vm_compute; reflexivity|]. split; [left; reflexivity|].
  intros s b J S1. pose proof (forall2_fun _ _ _ _ _ _ capital_fun (scream_is s) S1) as X.
  vm_compute in J. destruct J as [J|[J|[]]]; injection J as <- <-; vm_compute in X; discriminate X.
Qed.
Print Assumptions C50_unknown_node_refuted.
