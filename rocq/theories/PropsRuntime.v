(** C80: what the generated AST types do when they are used. *)
From Coq Require Import List Arith Bool Lia String.
From Verif Require Import Base BaseFacts TextModel TextSpec TreeModel TreeSpec TreeProofs SearchModel LexModel LexSpec LexProofs GrammarModel ParserModel ConvertModel GrammarData FileEditSpec DbModel
  AnalysisModel AnalysisSpec RefModel RefSpec CodegenModel CodegenSpec AstGenSpec FallLang FallCheck RustEditModel RustLang WellFormed CheckProofs ForestSpec SemSpec LeafSpec DeriveProofs PropsCheck PropsAnalysis PropsCodegen PropsComplete DeriveSpec ShapeCheck CompleteProofs
  NestProofs PropsNest AlwaysProofs PropsAlways NameData PropsDump AccessorData MeansFacts RuntimeModel RuntimeSpec RuntimeProofs RuntimeCheck OwnsProofs RuntimeShape.
From Verif Require ShipCheck.
Import ListNotations.
Open Scope list_scope.

(** * C80 *)

(** The methods [cm] generated for the method definition [m] give on every node of every file what the definition says. *)
Definition behaves (f : file) (types : list (bytes * bool)) (x : ctx_ast) (m : nat) (cm : ctx_method) : Prop :=
  name_of f m = Some (cm_name cm) /\ exists d, method_means f m (Some d) /\
  exists N, forall h T fuel n, wf_file h T -> char_tree (f_text h) T -> N <= fuel -> valid h n ->
    answers f h n d (call types x h fuel (cm_body cm) n) /\ forall r, answers f h n d r -> r = call types x h fuel (cm_body cm) n.

Fixpoint highest (rank : bytes -> nat) (l : list bytes) : nat := match l with [] => 0 | t :: l => Nat.max (rank t) (highest rank l) end.
Lemma below_highest : forall rank l t, In t l -> rank t < S (highest rank l).
Proof. induction l as [|u l IH]; intros t J; cbn [highest]; [destruct J|]. destruct J as [<-|J]; [lia|]. specialize (IH t J). lia. Qed.

Lemma done_behaves : forall f a x, kid f AST_DEF 0 = Some a -> ast_is f a x -> compiles (type_list f) x -> forall m cm, method_done f m cm -> behaves f (type_list f) x m cm.
Proof.
  intros f a x KA AI CP m cm (NM & d & MM & AC). split; [exact NM|]. exists d. split; [exact MM|]. destruct (cp_finite _ _ CP) as (rank & RK). exists (S (highest rank (type_names x))).
  intros h T fuel n WH CH LE V. pose proof (call_ok f a KA x AI CP h T WH CH rank RK m d (cm_body cm) MM AC fuel (fun t J => Nat.lt_le_trans _ _ _ (below_highest rank _ t J) LE) n V) as A.
  split; [exact A|]. intros r R. exact (answers_fun f a KA x AI CP h n d r _ R A).
Qed.

Lemma generated_ast : forall f T ask escape debug trim c x,
  wf_file f T -> char_tree (f_text f) T -> complete f -> block_bodies f -> honest f ask -> generate f ask escape debug trim = Ok (Some c) -> cx_ast c = Some x ->
  cx_types c = type_list f /\ exists a, kid f AST_DEF 0 = Some a /\ ast_is f a x.
Proof.
  intros f T ask escape debug trim c x WF CT CO BB HO G X. destruct (C38_faithful f T ask escape debug trim c WF CT CO BB HO G) as (ET & _). pose proof (C50_accessors f T ask escape debug trim c WF CT CO BB HO G) as A.
  rewrite X in A. split; [exact ET|]. destruct (kid f AST_DEF 0) as [a|]; [exists a; auto|destruct A].
Qed.

(** For every grammar the generator takes and whose module compiles: each method of each definition of a node is a method of
    the generated type, each method of a trait is one of the generated trait and so of the types of the nodes that name the
    trait; and on every node of every file such a method answers what the grammar says, and nothing else. *)
Theorem C80_answers : forall f T ask escape debug trim c x,
  wf_file f T -> char_tree (f_text f) T -> complete f -> block_bodies f -> honest f ask ->
  generate f ask escape debug trim = Ok (Some c) -> cx_ast c = Some x -> compiles (cx_types c) x ->
  (forall d m, In d (ast_parts f AST_NODE_DEF) -> In m (kids_of f METHOD_DEF d) ->
     exists y cm, In y (ca_nodes x) /\ type_name f d (cn_struct y) /\ In cm (cn_methods y) /\ behaves f (cx_types c) x m cm) /\
  (forall t m, In t (ast_parts f AST_TRAIT_DEF) -> In m (kids_of f METHOD_DEF t) ->
     exists tr cm, In tr (ca_traits x) /\ type_name f t (ct_name tr) /\ In cm (ct_methods tr) /\ behaves f (cx_types c) x m cm /\
       forall d s, In d (ast_parts f AST_NODE_DEF) -> implements f d t -> type_name f d s -> In s (ct_impl_for tr)).
Proof.
  intros f T ask escape debug trim c x WF CT CO BB HO G X CP. destruct (generated_ast f T ask escape debug trim c x WF CT CO BB HO G X) as (ET & a & KA & AI). rewrite ET in *.
  unfold ast_parts. rewrite KA. pose proof AI as (AN & _ & AT). split.
  - intros d m JD JM. destruct (forall2_left _ _ _ _ _ _ AN JD) as (y & JY & TN & _ & FM). destruct (forall2_left _ _ _ _ _ _ FM JM) as (cm & JC & MD). exists y, cm.
    split; [exact JY|]. split; [exact TN|]. split; [exact JC|exact (done_behaves f a x KA AI CP m cm MD)].
  - intros t m JT JM. destruct (forall2_left _ _ _ _ _ _ AT JT) as (tr & JR & TN & FM & ns & PN & FN). destruct (forall2_left _ _ _ _ _ _ FM JM) as (cm & JC & MD). exists tr, cm.
    split; [exact JR|]. split; [exact TN|]. split; [exact JC|]. split; [exact (done_behaves f a x KA AI CP m cm MD)|]. intros d s JD IM TS.
    assert (JN : In d ns) by (apply (AstGenProofs.picks_all _ _ _ _ PN d JD); intros q; exact IM). destruct (forall2_left _ _ _ _ _ _ FN JN) as (s' & JS & TS'). rewrite (AstGenProofs.type_name_fun _ _ _ _ TS TS'). exact JS.
Qed.
Print Assumptions C80_answers.

(** A node can be seen as a value of the type of a definition exactly if it is of that kind; the value holds the node, and for
    a class it is the first variant the node fits. *)
Theorem C80_wrap : forall f T ask escape debug trim c x,
  wf_file f T -> char_tree (f_text f) T -> complete f -> block_bodies f -> honest f ask ->
  generate f ask escape debug trim = Ok (Some c) -> cx_ast c = Some x -> compiles (cx_types c) x ->
  exists N, forall d t h Th fuel n, In d (node_defs f) \/ In d (class_defs f) -> type_name f d t ->
    wf_file h Th -> char_tree (f_text h) Th -> N <= fuel -> valid h n ->
    (~ of_kind f d (ty h n) /\ wrap (cx_types c) x h fuel t n = Ok None) \/
    (of_kind f d (ty h n) /\ exists v, wrap (cx_types c) x h fuel t n = Ok (Some v) /\ node_of v = n /\ value_of f h n d v /\ forall w, value_of f h n d w -> w = v).
Proof.
  intros f T ask escape debug trim c x WF CT CO BB HO G X CP. destruct (generated_ast f T ask escape debug trim c x WF CT CO BB HO G X) as (ET & a & KA & AI). rewrite ET in *.
  destruct (cp_finite _ _ CP) as (rank & RK). exists (S (highest rank (type_names x))). intros d t h Th fuel n JD TN WH CH LE V.
  assert (JT : In t (type_names x)) by (destruct JD as [JD|JD]; [exact (struct_named f a KA x AI CP d t JD TN)|exact (class_named f a KA x AI CP d t JD TN)]).
  destruct (wrap_ok f a KA x AI CP h rank RK n V fuel t (Nat.lt_le_trans _ _ _ (below_highest rank _ t JT) LE) d JD TN) as (r & W & P). destruct r as [v|]; [right|left; auto].
  destruct P as (OK & VO). split; [exact OK|]. exists v. split; [exact W|]. split; [exact (value_node f h n d v VO)|]. split; [exact VO|]. intros w VW. exact (value_fun f a KA x AI CP h n d w v VW VO).
Qed.
Print Assumptions C80_wrap.

(** What a method looks for among the children, and whether it must be there *)
Definition fits (f : file) (d : method_kind) (k : nat) : Prop :=
  match d with
  | TextAccessor t _ | NodeAccessor (CToken t) _ => exists s, name_of f t = Some s /\ type_no f s k
  | NodeAccessor (CAstNode e) _ | NodeAccessor (CAstClass e) _ => of_kind f e k
  end.
Definition arity_of (d : method_kind) : arity := match d with TextAccessor _ a => a | NodeAccessor _ a => a end.

(** A method panics exactly if it is for one child and there is none of the kind; otherwise it returns. *)
Theorem C80_panics : forall f T ask escape debug trim c x,
  wf_file f T -> char_tree (f_text f) T -> complete f -> block_bodies f -> honest f ask ->
  generate f ask escape debug trim = Ok (Some c) -> cx_ast c = Some x -> compiles (cx_types c) x ->
  forall m cm, behaves f (cx_types c) x m cm -> exists d, method_means f m (Some d) /\
  exists N, forall h Th fuel n, wf_file h Th -> char_tree (f_text h) Th -> N <= fuel -> valid h n ->
    (call (cx_types c) x h fuel (cm_body cm) n = Panic <-> arity_of d = Single /\ ~ exists k, In k (kids h n) /\ fits f d (ty h k)) /\
    call (cx_types c) x h fuel (cm_body cm) n <> OutOfFuel.
Proof.
  intros f T ask escape debug trim c x WF CT CO BB HO G X CP m cm (_ & d & MM & N & B). destruct (generated_ast f T ask escape debug trim c x WF CT CO BB HO G X) as (ET & a & KA & AI). rewrite ET in *.
  exists d. split; [exact MM|]. exists N. intros h Th fuel n WH CH LE V. destruct (B h Th fuel n WH CH LE V) as (A & _).
  assert (FIRST : forall A (a : arity) (mk : A -> answer) many l (E : Prop), (l = [] <-> ~ E) -> (the_first a mk many l = Panic <-> a = Single /\ ~ E) /\ the_first a mk many l <> OutOfFuel).
  { intros A0 [| |] mk many [|v l] E H; cbn [the_first]; (split; [|discriminate]); split; intros Q; try discriminate Q; try (destruct Q as (Q & _); discriminate Q).
    - split; [reflexivity|]. apply H. reflexivity.
    - reflexivity.
    - destruct Q as (_ & Q). apply H in Q. discriminate Q. }
  assert (TOK : forall t s k, name_of f t = Some s -> type_no f s k -> (kids_of h k n = @nil nat <-> ~ exists j, In j (kids h n) /\ exists s0, name_of f t = Some s0 /\ type_no f s0 (ty h j))).
  { intros t s k NS TY. split.
    - intros E (j & J & s0 & NS0 & TY0). rewrite NS in NS0. injection NS0 as <-. pose proof (type_no_fun f x CP s _ _ TY TY0) as Q. assert (I : In j (kids_of h k n)) by (unfold kids_of; apply filter_In; split; [exact J|apply Nat.eqb_eq; congruence]). rewrite E in I. destruct I.
    - intros NO. destruct (kids_of h k n) as [|j l] eqn:E; [reflexivity|]. exfalso. apply NO. assert (I : In j (kids_of h k n)) by (rewrite E; left; reflexivity). unfold kids_of in I. apply filter_In in I. destruct I as (J & Q). apply Nat.eqb_eq in Q.
      exists j. split; [exact J|]. exists s. split; [exact NS|]. rewrite Q. exact TY. }
  assert (AST : forall e l, children_as f h n e l -> (l = [] <-> ~ exists j, In j (kids h n) /\ of_kind f e (ty h j))).
  { intros e l (cs & P & F). assert (L : l = [] <-> cs = []) by (destruct F; split; congruence). rewrite L. clear L F TOK FIRST. revert P. generalize (@nil nat) at 1 as pre. generalize (kids h n) as ks. intros ks pre P.
    induction P as [pre|pre j ks out H P IH|pre j ks out H P IH].
    - split; [intros _ (j & [] & _)|reflexivity].
    - split; [discriminate|]. intros NO. exfalso. apply NO. exists j. split; [left; reflexivity|exact H].
    - rewrite IH. split; intros NO (i & J & Q); apply NO; [destruct J as [<-|J]; [contradiction|exists i; auto]|exists i; split; [right; exact J|exact Q]]. }
  destruct A as [t ar s k NS TY|t ar s k NS TY|e ar l C|e ar l C]; cbn [arity_of fits]; apply FIRST.
  - exact (TOK t s k NS TY).
  - exact (TOK t s k NS TY).
  - exact (AST e l C).
  - exact (AST e l C).
Qed.
Print Assumptions C80_panics.

(** ** The module of the example grammar on a file of its language *)
Definition calc_context : context := Eval vm_compute in ShipCheck.the_context (generate calc (direct 4 calc) same same same).
Definition calc_ast : ctx_ast := Eval vm_compute in match cx_ast calc_context with Some x => x | None => mkCtxAst [] [] [] end.
(** [1+2]: a file (104) of a sum (105) of two atoms (106) *)
Definition calc_tree : tree := Node 104 [Node 105 [Node 106 [Leaf 101 1]; Leaf 100 1; Node 106 [Leaf 101 1]]].
Definition calc_text : file := mkFile (FallLang.text_of "1+2") (layout calc_tree None 0 0).

Definition distinct (l : list bytes) : bool := (fix go l := match l with [] => true | t :: r => negb (existsb (bytes_eqb t) r) && go r end) l.
Lemma distinct_ok : forall l, distinct l = true -> NoDup l.
Proof.
  induction l as [|t l IH]; intros H; [constructor|]. cbn in H. apply andb_true_iff in H. destruct H as (A & B). constructor; [|exact (IH B)]. intros J. apply negb_true_iff in A.
  assert (X : existsb (bytes_eqb t) l = true) by (apply existsb_exists; exists t; split; [exact J|apply beq; reflexivity]). congruence.
Qed.
Definition compiles_b (types : list (bytes * bool)) (x : ctx_ast) (rank : bytes -> nat) : bool :=
  distinct (map (fun t => scream (fst t)) types) && distinct (type_names x) &&
  forallb (fun d => existsb (bytes_eqb (cn_type d)) (map (fun t => scream (fst t)) types)) (ca_nodes x) &&
  forallb (fun d => forallb (fun v => existsb (bytes_eqb (snd v)) (type_names x) && Nat.ltb (rank (snd v)) (rank (cc_enum d))) (cc_variants d)) (ca_classes x).
Lemma compiles_check : forall types x rank, compiles_b types x rank = true -> compiles types x.
Proof.
  intros types x rank H. unfold compiles_b in H. rewrite !andb_true_iff, !forallb_forall in H. destruct H as (((A & B) & C) & D).
  assert (IN : forall t l, existsb (bytes_eqb t) l = true -> In t l) by (intros t l E; apply existsb_exists in E; destruct E as (u & J & E); apply beq in E; subst u; exact J).
  constructor; [apply distinct_ok; exact A|apply distinct_ok; exact B|intros d J; apply IN; exact (C d J)| |].
  - intros d v J JV. specialize (D d J). rewrite forallb_forall in D. specialize (D v JV). apply andb_true_iff in D. apply IN. exact (proj1 D).
  - exists rank. intros d v J JV. specialize (D d J). rewrite forallb_forall in D. specialize (D v JV). apply andb_true_iff in D. apply Nat.ltb_lt. exact (proj2 D).
Qed.

Definition method_body (x : ctx_ast) (s : string) : accessor :=
  match List.find (fun m => bytes_eqb (cm_name m) (FallLang.text_of s)) (flat_map cn_methods (ca_nodes x) ++ flat_map ct_methods (ca_traits x)) with Some m => cm_body m | None => AText false [] end.
Definition atom_of (n : nat) : ast := AEnum (FallLang.text_of "Expr") (FallLang.text_of "Atom") (AStruct (FallLang.text_of "Atom") n).
Example C80_case :
  generate calc (direct 4 calc) same same same = Ok (Some calc_context) /\ cx_ast calc_context = Some calc_ast /\ compiles (cx_types calc_context) calc_ast /\
  wf_file calc_text calc_tree /\ char_tree (f_text calc_text) calc_tree /\
  (let answer m n := call (cx_types calc_context) calc_ast calc_text 5 (method_body calc_ast m) n in
   map (fun q => answer (fst q) (snd q)) [("args", 1); ("plus", 1); ("num", 2); ("num", 1); ("first_arg", 1); ("first_arg", 2); ("plus", 2)]%string =
   [Ok (RMany [atom_of 2; atom_of 5]); Ok (RText [43]); Ok (RSome (RNode 3)); Ok RNone; Ok (RSome (RAst (atom_of 2))); Ok RNone; Panic]).
Proof.
  split; [vm_compute; reflexivity|]. split; [vm_compute; reflexivity|].
  split; [apply (compiles_check _ _ (fun t => if bytes_eqb t (FallLang.text_of "Expr") then 1 else 0)); vm_compute; reflexivity|].
  assert (W : wf_file calc_text calc_tree) by (apply wf_check; vm_compute; reflexivity). split; [exact W|].
  split; [apply (ascii_tree calc_text calc_tree W); apply Forall_forall; intros b J; cbn in J; lia|]. vm_compute. reflexivity.
Qed.
