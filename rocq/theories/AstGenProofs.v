(** The generated accessors are those the grammar file describes. *)
From Coq Require Import List Arith Bool Lia NArith.
From Verif Require Import Base BaseFacts TextModel TreeModel SearchModel IndexModel DbModel DbSpec DbProofs DbTrace AnalysisModel RefModel GrammarModel CodegenModel
  TextSpec TreeSpec SearchSpec FileEditSpec EditorSpec IndexSpec AnalysisSpec RefSpec CodegenSpec AstGenSpec
  TextProofs TreeProofs SearchProofs TraversalProofs EditorProofs IndexProofs ViewProofs AnalysisProofs CollectProofs RunProofs MeansFacts AnalysisFacts RefProofs CodegenProofs.
Import ListNotations.

(** ** Names *)
Lemma upper_is : forall b, capital b (upper b).
Proof.
  intros b. unfold capital, upper. destruct (Nat.leb_spec 97 b) as [A|A]; destruct (Nat.leb_spec b 122) as [B|B]; cbn [andb]; lia.
Qed.
Lemma capital_fun : forall b u v, capital b u -> capital b v -> u = v.
Proof. intros b u v H H'. unfold capital in *. lia. Qed.
Lemma scream_is : forall s, screams s (scream s).
Proof. intros s. induction s as [|b s IH]; constructor; [apply upper_is|exact IH]. Qed.

Lemma split_ne : forall s w, split_underscore s w <> [].
Proof. intros s. induction s as [|b s IH]; intros w; cbn [split_underscore]; [discriminate|]. destruct (b =? 95); [discriminate|apply IH]. Qed.
Lemma split_joined : forall s w, joined (split_underscore s w) = rev w ++ s.
Proof.
  intros s. induction s as [|b s IH]; intros w; cbn [split_underscore]; [cbn [joined]; rewrite app_nil_r; reflexivity|].
  destruct (b =? 95) eqn:E.
  - apply Nat.eqb_eq in E. subst b. cbn [joined]. pose proof (split_ne s []) as N. pose proof (IH []) as J. destruct (split_underscore s []) as [|x l]; [destruct (N eq_refl)|].
    rewrite J. reflexivity.
  - rewrite IH. cbn [rev]. rewrite <- app_assoc. reflexivity.
Qed.
Lemma split_clean : forall s w, ~ In 95 w -> forall x, In x (split_underscore s w) -> ~ In 95 x.
Proof.
  intros s. induction s as [|b s IH]; intros w N x I; cbn [split_underscore] in I.
  - destruct I as [<-|[]]. rewrite <- in_rev. exact N.
  - destruct (b =? 95) eqn:E.
    + destruct I as [<-|I]; [rewrite <- in_rev; exact N|]. apply (IH [] (fun H => H) x I).
    + apply (IH (b :: w)); [|exact I]. apply Nat.eqb_neq in E. intros [H|H]; [congruence|exact (N H)].
Qed.
Lemma split_words : forall s, words s (split_underscore s []).
Proof. intros s. split; [apply split_ne|]. split; [apply split_joined|]. apply split_clean. intros []. Qed.

Lemma cut_fun : forall a b a' b', ~ In 95 a -> ~ In 95 a' -> a ++ 95 :: b = a' ++ 95 :: b' -> a = a' /\ b = b'.
Proof.
  intros a. induction a as [|x a IH]; intros b [|x' a'] b' N N' E; cbn [app] in E; try (injection E; intros; subst).
  - split; reflexivity.
  - exfalso. apply N'. left. reflexivity.
  - exfalso. apply N. left. reflexivity.
  - destruct (IH b a' b') as (-> & ->); [intros I; apply N; right; exact I|intros I; apply N'; right; exact I|assumption|]. split; reflexivity.
Qed.
Lemma words_fun : forall ws s ws', words s ws -> words s ws' -> ws = ws'.
Proof.
  intros ws. induction ws as [|w ws IH]; intros s ws' (N & J & C) (N' & J' & C'); [destruct (N eq_refl)|]. destruct ws' as [|w' ws']; [destruct (N' eq_refl)|].
  pose proof (C w (or_introl eq_refl)) as CW. pose proof (C' w' (or_introl eq_refl)) as CW'. cbn [joined] in J, J'.
  destruct ws as [|x ws]; destruct ws' as [|x' ws'].
  - congruence.
  - exfalso. apply CW. rewrite J, <- J'. apply in_or_app. right. left. reflexivity.
  - exfalso. apply CW'. rewrite J', <- J. apply in_or_app. right. left. reflexivity.
  - rewrite <- J' in J. destruct (cut_fun _ _ _ _ CW CW' J) as (-> & E). f_equal. apply (IH (joined (x' :: ws'))).
    + split; [discriminate|]. split; [exact E|]. intros y I. exact (C y (or_intror I)).
    + split; [discriminate|]. split; [reflexivity|]. intros y I. exact (C' y (or_intror I)).
Qed.

Lemma camel_word_cases : forall w, (exists c, camel_word w = Ok c /\ capitalised w c) \/ (camel_word w = Panic /\ forall c, ~ capitalised w c).
Proof.
  intros [|b r]; [right; split; [reflexivity|intros c (b & u & r & E & _); discriminate E]|].
  unfold camel_word, str_index, sub. cbn [rstart rend length Nat.leb guard is_char_boundary Nat.eqb andb skipn firstn map Nat.sub].
  destruct r as [|x r].
  - left. eexists. split; [reflexivity|]. exists b, (upper b), []. repeat split. apply upper_is.
  - unfold is_char_boundary. cbn [Nat.eqb length nth_error]. destruct (is_cont x) eqn:X; cbn [negb guard bind].
    + right. split; [reflexivity|]. intros c (b' & u & r' & E & _ & _ & H). injection E as <- <-. congruence.
    + left. rewrite Nat.eqb_refl. cbn [andb guard bind firstn skipn]. rewrite firstn_all2 by (cbn [length]; lia). eexists. split; [reflexivity|]. exists b, (upper b), (x :: r).
      split; [reflexivity|]. split; [apply upper_is|]. split; [reflexivity|exact X].
Qed.

Lemma camel_cases : forall s, (exists c, camel s = Ok c /\ camel_case s c) \/ (camel s = Panic /\ ~ nameable s).
Proof.
  intros s. unfold camel. pose proof (split_words s) as W.
  assert (F : forall ws acc,
    (exists cs, fold_res (fun acc w => c <- camel_word w ;; Ok (acc ++ c)) acc ws = Ok (acc ++ concat cs) /\ Forall2 capitalised ws cs) \/
    (fold_res (fun acc w => c <- camel_word w ;; Ok (acc ++ c)) acc ws = Panic /\ forall cs, ~ Forall2 capitalised ws cs)).
  { intros ws. induction ws as [|w ws IH]; intros acc; cbn [fold_res].
    - left. exists []. cbn [concat]. rewrite app_nil_r. split; [reflexivity|constructor].
    - destruct (camel_word_cases w) as [(c & -> & C)|(-> & C)]; cbn [bind].
      + destruct (IH (acc ++ c)) as [(cs & -> & FC)|(-> & FC)].
        * left. exists (c :: cs). cbn [concat]. rewrite <- app_assoc. split; [reflexivity|constructor; assumption].
        * right. split; [reflexivity|]. intros cs H. inversion H; subst. exact (FC _ H4).
      + right. split; [reflexivity|]. intros cs H. inversion H; subst. exact (C _ H2). }
  destruct (F (split_underscore s []) []) as [(cs & -> & FC)|(-> & FC)]; cbn [bind app].
  - left. eexists. split; [reflexivity|]. exists (split_underscore s []), cs. auto.
  - right. split; [reflexivity|]. intros (c & ws & cs & W' & FC' & _). rewrite (words_fun _ _ _ W W') in FC. exact (FC cs FC').
Qed.
Lemma capitalised_fun : forall w c c', capitalised w c -> capitalised w c' -> c = c'.
Proof.
  intros w c c' (b & u & r & -> & K & -> & _) (b' & u' & r' & E & K' & -> & _). injection E as <- <-. f_equal. exact (capital_fun _ _ _ K K').
Qed.
Lemma forall2_fun : forall A B (P : A -> B -> Prop) l m m', (forall a b b', P a b -> P a b' -> b = b') -> Forall2 P l m -> Forall2 P l m' -> m = m'.
Proof.
  intros A B P l m m' H F. revert m'. induction F as [|a b l m AB F IH]; intros m' F'; inversion F'; subst; [reflexivity|].
  f_equal; [eapply H; eassumption|apply IH; assumption].
Qed.
Lemma camel_fun : forall s c c', camel_case s c -> camel_case s c' -> c = c'.
Proof.
  intros s c c' (ws & cs & W & F & ->) (ws' & cs' & W' & F' & ->). rewrite (words_fun _ _ _ W' W) in F'.
  rewrite (forall2_fun _ _ _ _ _ _ capitalised_fun F F'). reflexivity.
Qed.

Lemma decided_camel : forall A s (k : bytes -> outcome A) (P : Prop) Q,
  (forall c, camel_case s c -> decided P (k c) Q) -> decided (nameable s /\ P) (c <- camel s ;; k c) Q.
Proof.
  intros A s k P Q D. destruct (camel_cases s) as [(c & -> & C)|(-> & C)]; cbn [bind].
  - destruct (D c C) as [(H & E)|(H & E)]; [left|right]; split; try assumption; [split; [exists c; exact C|exact H]|tauto].
  - right. split; [tauto|right; reflexivity].
Qed.

(** ** Definitions *)
Section Ast.
  Variable f : file.
  Variable T : tree.
  Hypothesis WF : wf_file f T.
  Hypothesis CT : char_tree (f_text f) T.
  Hypothesis CO : complete f.
  Variable ask : key -> res value.
  Hypothesis HON : honest f ask.
  Notation nodes := (f_nodes f).

  Lemma type_name_fun : forall x c c', type_name f x c -> type_name f x c' -> c = c'.
  Proof. intros x c c' (s & N & C) (s' & N' & C'). rewrite N in N'. injection N' as <-. exact (camel_fun _ _ _ C C'). Qed.

  Lemma name_exists : forall t x, In t [LEX_RULE; AST_NODE_DEF; AST_CLASS_DEF; AST_TRAIT_DEF] -> is_a f t x ->
    exists s, name_of f x = Some s /\ child_text f x IDENT = Ok s.
  Proof.
    intros t x J A. destruct (name_of f x) as [s|] eqn:N.
    - exists s. split; [reflexivity|]. exact (name_text f T WF CT x s (proj1 A) N).
    - exfalso. refine (co_named f CO x t _ A N). cbn [In] in *. tauto.
  Qed.

  Lemma constant_is : forall t s, name_of f t = Some s -> constant f t (scream s).
  Proof. intros t s N. exists s. split; [exact N|apply scream_is]. Qed.

  Lemma selects_is : forall s c, selects f s (Some c) ->
    match c with
    | CAstNode x => In x (ast_parts f AST_NODE_DEF)
    | CAstClass x => In x (ast_parts f AST_CLASS_DEF)
    | CToken x => is_a f LEX_RULE x
    end.
  Proof.
    intros s c H. inversion H; subst.
    - eapply first_such_in. eassumption.
    - eapply first_such_in. eassumption.
    - apply (tokens_in f T WF). eapply first_such_in. eassumption.
  Qed.
  Lemma ast_parts_in : forall t x, In x (ast_parts f t) -> exists a, kid f AST_DEF 0 = Some a /\ In x (kids_of f t a).
  Proof. intros t x I. unfold ast_parts in I. destruct (kid f AST_DEF 0) as [a|]; [|destruct I]. exists a. split; [reflexivity|exact I]. Qed.

  (** The definition a method selects can be named. *)
  Definition reaches (m x : nat) : Prop := exists a, method_means f m (Some (NodeAccessor (CAstNode x) a)) \/ method_means f m (Some (NodeAccessor (CAstClass x) a)).
  Definition target_named (m : nat) : Prop := forall x s, reaches m x -> name_of f x = Some s -> nameable s.
  Definition method_works (m : nat) : Prop := method_fits f m /\ target_named m.

  Lemma reaches_in : forall m x, reaches m x -> exists t, In t [AST_NODE_DEF; AST_CLASS_DEF] /\ In x (ast_parts f t).
  Proof.
    intros m x (a & [M|M]); inversion M; subst; match goal with H : selects _ _ _ |- _ => pose proof (selects_is _ _ H) as SI end.
    - exists AST_NODE_DEF. cbn [In]. auto.
    - exists AST_CLASS_DEF. cbn [In]. auto.
  Qed.

  Lemma gen_method_ok : forall m, is_a f METHOD_DEF m -> decided (method_works m) (gen_method f ask m) (method_done f m).
  Proof.
    intros m A. pose proof (proj1 A) as V. unfold gen_method.
    destruct (ask_method f T WF CT CO ask HON m A) as (o & E & MM). unfold CodegenModel.ask_method. rewrite E. cbn [bind].
    destruct o as [d|].
    2:{ right. split; [|left; reflexivity]. intros ((_ & d & M' & _) & _). pose proof (method_means_fun f m _ _ MM M'). discriminate. }
    unfold ok_or. rewrite try_some. rewrite (child_text_v f T WF CT IDENT m V).
    unfold method_works, method_fits, method_done. destruct (kid f IDENT m) as [i|] eqn:KI.
    2:{ right. unfold name_of. rewrite KI. split; [intros ((H & _) & _); exact (H eq_refl)|right; reflexivity]. }
    assert (NM : name_of f m = Some (str f i)) by (unfold name_of; rewrite KI; reflexivity). rewrite NM. cbn [bind].
    assert (FIT : forall (Q : Prop),
      (match d with TextAccessor _ a | NodeAccessor (CToken _) a => a <> Many | NodeAccessor (CAstNode x) _ | NodeAccessor (CAstClass x) _ => forall s, name_of f x = Some s -> nameable s end <-> Q) ->
      (Q <-> (Some (str f i) <> None /\ exists d, method_means f m (Some d) /\ match d with TextAccessor _ a | NodeAccessor (CToken _) a => a <> Many | _ => True end) /\ target_named m)).
    { intros Q HQ. rewrite <- HQ. split.
      - intros H. split; [split; [discriminate|]; exists d; split; [exact MM|]; destruct d as [[x|x|t] a|t a]; auto|].
        intros x s (a & [M|M]); pose proof (method_means_fun f m _ _ MM M) as X; injection X as ->; exact (H s).
      - intros ((_ & d' & M' & H) & TN). pose proof (method_means_fun f m _ _ MM M') as X. injection X as <-.
        destruct d as [[x|x|t] a|t a]; try exact H; intros s; apply TN; exists a; auto. }
    assert (NODE : forall t x a, In t [AST_NODE_DEF; AST_CLASS_DEF] -> In x (ast_parts f t) ->
      (forall c, type_name f x c -> accessor_is f d (AChild a c)) ->
      decided (forall s, name_of f x = Some s -> nameable s) (s <- child_text f x IDENT;; c <- camel s;; done (mkMethod (str f i) (AChild a c)))
        (fun y => Some (str f i) = Some (cm_name y) /\ exists d, method_means f m (Some d) /\ accessor_is f d (cm_body y))).
    { intros t x a JT JX HA. destruct (ast_parts_in t x JX) as (ad & _ & JK). destruct (kids_of_in f T WF _ _ _ JK) as (_ & AX).
      destruct (name_exists t x ltac:(cbn [In] in *; tauto) AX) as (s & NS & ->). cbn [bind].
      eapply decided_iff; [|apply (decided_camel _ s _ True)]; [split; [intros (H & _) s' N'; rewrite NS in N'; injection N' as <-; exact H|intros H; split; [exact (H s NS)|exact I]]|].
      intros c C. apply decided_yes; [exact I|]. cbn [cm_name cm_body]. split; [reflexivity|]. exists d. split; [exact MM|]. apply HA. exists s. auto. }
    assert (TOK : forall r g, is_a f LEX_RULE r -> (forall c, constant f r c -> accessor_is f d (g c)) ->
      decided True (s <- node_type f r;; done (mkMethod (str f i) (g (scream s))))
        (fun y => Some (str f i) = Some (cm_name y) /\ exists d, method_means f m (Some d) /\ accessor_is f d (cm_body y))).
    { intros r g AR HA. destruct (name_exists LEX_RULE r ltac:(cbn [In]; auto) AR) as (s & NS & ES). unfold node_type. rewrite ES. cbn [bind].
      apply decided_yes; [exact I|]. cbn [cm_name cm_body]. split; [reflexivity|]. exists d. split; [exact MM|]. apply HA. apply constant_is. exact NS. }
    inversion MM; subst.
    - match goal with H : selects _ _ _ |- _ => pose proof (selects_is _ _ H) as SI end. destruct c as [x|x|t].
      + eapply decided_iff; [apply FIT; reflexivity|]. apply (NODE AST_NODE_DEF); [cbn [In]; auto|exact SI|]. intros c C. apply ai_node. exact C.
      + eapply decided_iff; [apply FIT; reflexivity|]. apply (NODE AST_CLASS_DEF); [cbn [In]; auto|exact SI|]. intros c C. apply ai_class. exact C.
      + destruct (selector_arity f sel).
        * eapply decided_iff; [apply (FIT True); split; [auto|discriminate]|]. apply TOK; [exact SI|]. intros c C. apply (ai_token f t Single); [discriminate|exact C].
        * eapply decided_iff; [apply (FIT True); split; [auto|discriminate]|]. apply TOK; [exact SI|]. intros c C. apply (ai_token f t Optional); [discriminate|exact C].
        * eapply decided_iff; [apply (FIT False); split; [intros H'; exact (H' eq_refl)|intros []]|]. right. split; [tauto|right; reflexivity].
    - match goal with H : selects _ _ _ |- _ => pose proof (selects_is _ _ H) as SI end.
      destruct (selector_arity f sel).
      + eapply decided_iff; [apply (FIT True); split; [auto|discriminate]|]. apply TOK; [exact SI|]. intros c C. apply (ai_text f t Single); [discriminate|exact C].
      + eapply decided_iff; [apply (FIT True); split; [auto|discriminate]|]. apply TOK; [exact SI|]. intros c C. apply (ai_text f t Optional); [discriminate|exact C].
      + eapply decided_iff; [apply (FIT False); split; [intros H'; exact (H' eq_refl)|intros []]|]. right. split; [tauto|right; reflexivity].
  Qed.

  Lemma gen_methods_ok : forall n, valid f n ->
    decided (forall m, In m (kids_of f METHOD_DEF n) -> method_works m) (gen_methods f ask n) (Forall2 (method_done f) (kids_of f METHOD_DEF n)).
  Proof.
    intros n V. unfold gen_methods. rewrite (children_is_v f T WF METHOD_DEF n V). cbn [bind]. apply try_list_ok.
    intros m J. apply gen_method_ok. exact (proj2 (kids_of_in f T WF _ _ _ J)).
  Qed.

  (** A list of names *)
  Lemma camels_cases : forall A B (get : A -> res bytes) (nm : A -> bytes -> Prop) (g : bytes -> bytes -> B) l,
    (forall a, In a l -> exists s, get a = Ok s /\ nm a s /\ forall s', nm a s' -> s = s') ->
    (exists out, flat_map_res (fun a => s <- get a ;; c <- camel s ;; Ok [g s c]) l = Ok out /\
       Forall2 (fun a b => exists s c, nm a s /\ camel_case s c /\ b = g s c) l out /\ forall a s, In a l -> nm a s -> nameable s) \/
    (flat_map_res (fun a => s <- get a ;; c <- camel s ;; Ok [g s c]) l = Panic /\ ~ (forall a s, In a l -> nm a s -> nameable s)).
  Proof.
    intros A B get nm g l. induction l as [|a l IH]; intros H; cbn [flat_map_res].
    - left. exists []. split; [reflexivity|]. split; [constructor|intros a s []].
    - destruct (H a (or_introl eq_refl)) as (s & E & N & U). rewrite E. cbn [bind]. destruct (camel_cases s) as [(c & -> & C)|(-> & C)]; cbn [bind].
      + destruct (IH (fun x J => H x (or_intror J))) as [(out & -> & F & NA)|(-> & NA)]; cbn [bind].
        * left. exists (g s c :: out). split; [reflexivity|]. split.
          -- constructor; [exists s, c; auto|exact F].
          -- intros x s' [<-|J] NX; [rewrite <- (U s' NX); exists c; exact C|exact (NA x s' J NX)].
        * right. split; [reflexivity|]. intros X. apply NA. intros x s' J. exact (X x s' (or_intror J)).
      + right. split; [reflexivity|]. intros X. exact (C (X a s (or_introl eq_refl) N)).
  Qed.

  Lemma decided_and : forall A (P P' : Prop) (x : outcome A) Q, P -> decided P' x Q -> decided (P /\ P') x Q.
  Proof. intros A P P' x Q H [(H' & E)|(H' & E)]; [left|right]; tauto. Qed.

  Definition name_fits (x : nat) : Prop := forall s, name_of f x = Some s -> nameable s.
  Lemma named_ok : forall A t x (k : bytes -> bytes -> outcome A) (P : Prop) Q,
    In t [LEX_RULE; AST_NODE_DEF; AST_CLASS_DEF; AST_TRAIT_DEF] -> is_a f t x ->
    (forall s c, name_of f x = Some s -> camel_case s c -> decided P (k s c) Q) ->
    decided (name_fits x /\ P) (s <- child_text f x IDENT ;; c <- camel s ;; k s c) Q.
  Proof.
    intros A t x k P Q JT AX D. destruct (name_exists t x JT AX) as (s & NS & ->). cbn [bind].
    eapply decided_iff; [|apply (decided_camel _ s (k s) P)]; [|intros c C; exact (D s c NS C)].
    unfold name_fits. split; intros (H & H'); split; try exact H'; [intros s' N'; rewrite NS in N'; injection N' as <-; exact H|exact (H s NS)].
  Qed.

  Definition node_fits (n : nat) : Prop := name_fits n /\ forall m, In m (kids_of f METHOD_DEF n) -> method_works m.
  Lemma node_ok : forall n, is_a f AST_NODE_DEF n ->
    decided (node_fits n)
      (s <- child_text f n IDENT ;; c <- camel s ;; ms <! gen_methods f ask n ;; done (mkCtxNode c (scream s) ms)) (node_is f n).
  Proof.
    intros n A. apply (named_ok _ AST_NODE_DEF); [cbn [In]; auto|exact A|]. intros s c NS C.
    eapply decided_iff; [|eapply decided_try; [exact (gen_methods_ok n (proj1 A))|]]; [instantiate (1 := True); tauto|].
    intros ms F. apply decided_yes; [exact I|]. unfold node_is. cbn [cn_struct cn_type cn_methods].
    split; [exists s; auto|]. split; [exact (constant_is n s NS)|exact F].
  Qed.

  Definition class_fits (n : nat) : Prop := name_fits n /\ forall i, In i (variants f n) -> nameable (str f i).
  Lemma class_variants_v : forall n, valid f n -> class_variants f n = Ok (map (str f) (variants f n)).
  Proof.
    intros n V. unfold class_variants, variants. rewrite (kids_of_v f T WF IDENT n V). cbn [bind].
    assert (VK : forall i, In i (List.tl (kids_of f IDENT n)) -> valid f i).
    { intros i J. assert (J' : In i (kids_of f IDENT n)) by (destruct (kids_of f IDENT n); [destruct J|right; exact J]). exact (proj1 (proj2 (kids_of_in f T WF _ _ _ J'))). }
    induction (List.tl (kids_of f IDENT n)) as [|i l IH]; [reflexivity|]. cbn [flat_map_res map]. rewrite (text_v f T WF CT i (VK i (or_introl eq_refl))). cbn [bind].
    rewrite (IH (fun x J => VK x (or_intror J))). reflexivity.
  Qed.
  Lemma forall2_map_l : forall A B C (g : A -> B) (P : B -> C -> Prop) l m, Forall2 P (map g l) m -> Forall2 (fun a c => P (g a) c) l m.
  Proof.
    intros A B C g P l. induction l as [|a l IH]; intros m F; inversion F; subst; constructor; [assumption|]. apply IH. assumption.
  Qed.
  Lemma forall2_weaken : forall A B (P Q : A -> B -> Prop) l m, (forall a b, P a b -> Q a b) -> Forall2 P l m -> Forall2 Q l m.
  Proof. intros A B P Q l m H F. induction F; constructor; auto. Qed.
  Lemma class_ok : forall n, is_a f AST_CLASS_DEF n ->
    decided (class_fits n)
      (s <- child_text f n IDENT ;; c <- camel s ;; vs <- class_variants f n ;;
       l <- flat_map_res (fun v => c <- camel v ;; Ok [(scream v, c)]) vs ;; done (mkCtxClass c l)) (class_is f n).
  Proof.
    intros n A. apply (named_ok _ AST_CLASS_DEF); [cbn [In]; auto|exact A|]. intros s c NS C.
    rewrite (class_variants_v n (proj1 A)). cbn [bind].
    destruct (camels_cases _ _ (fun v : bytes => Ok v) (fun v s => v = s) (fun v c => (scream v, c)) (map (str f) (variants f n))) as [(out & E & F & NA)|(E & NA)].
    - intros v _. exists v. split; [reflexivity|]. split; [reflexivity|auto].
    - cbn [bind] in E. rewrite E. cbn [bind]. apply decided_yes.
      + intros i J. apply (NA (str f i) (str f i)); [apply in_map; exact J|reflexivity].
      + split; [exists s; auto|]. cbn [cc_variants]. apply forall2_map_l in F. eapply forall2_weaken; [|exact F].
        intros i (u, v) (s' & c' & <- & C' & X). injection X as -> ->. split; [apply scream_is|exact C'].
    - cbn [bind] in E. rewrite E. cbn [bind]. right. split; [|right; reflexivity]. intros H. apply NA. intros v s' J <-.
      apply in_map_iff in J. destruct J as (i & <- & J). exact (H i J).
  Qed.

  (** *** Traits *)
  Lemma ask_traits_v : forall n, is_a f AST_NODE_DEF n -> exists ts, CodegenModel.ask_traits ask n = Ok ts /\ forall t, In t ts <-> implements f n t.
  Proof.
    intros n A. destruct (HON (QTraits n) A) as (v & E & AN). destruct (answered_says f T WF CT CO (QTraits n) v A AN) as (ds & refs & ts & -> & TR & TM).
    exists ts. unfold CodegenModel.ask_traits. rewrite E. split; [reflexivity|]. intros t. split.
    - intros J. exists refs, ts, ds. auto.
    - intros (refs' & ts' & ds' & TR' & TM' & J). rewrite (trait_refs_fun f n _ _ TR' TR) in TM'. destruct (traits_mean_fun f _ _ _ _ _ TM TM') as (-> & _). exact J.
  Qed.
  Lemma implementers : forall t l pre, (forall n, In n l -> is_a f AST_NODE_DEF n) ->
    exists out, filter_res (fun n => ts <- CodegenModel.ask_traits ask n ;; Ok (existsb (Nat.eqb t) ts)) l = Ok out /\
      picks (fun _ n => implements f n t) pre l out.
  Proof.
    intros t l. induction l as [|n l IH]; intros pre H; cbn [filter_res].
    - exists []. split; [reflexivity|constructor].
    - destruct (ask_traits_v n (H n (or_introl eq_refl))) as (ts & -> & I). cbn [bind].
      destruct (IH (pre ++ [n]) (fun x J => H x (or_intror J))) as (out & -> & P).
      assert (X : existsb (Nat.eqb t) ts = true <-> implements f n t).
      { rewrite <- I, existsb_exists. split; [intros (x & J & E); apply Nat.eqb_eq in E; subst x; exact J|intros J; exists t; split; [exact J|apply Nat.eqb_refl]]. }
      destruct (existsb (Nat.eqb t) ts); cbn [bind].
      + exists (n :: out). split; [reflexivity|]. apply pk_yes; [apply X; reflexivity|exact P].
      + exists out. split; [reflexivity|]. apply pk_no; [|exact P]. intros Y. apply X in Y. discriminate Y.
  Qed.
  Lemma picks_in : forall A (P : list A -> A -> Prop) pre l out, picks P pre l out -> forall x, In x out -> In x l.
  Proof. intros A P pre l out H. induction H; intros y J; [destruct J| |right; auto]. destruct J as [<-|J]; [left; reflexivity|right; auto]. Qed.

  Definition trait_fits (a t : nat) : Prop :=
    name_fits t /\ (forall m, In m (kids_of f METHOD_DEF t) -> method_works m) /\
    forall n, In n (kids_of f AST_NODE_DEF a) -> implements f n t -> name_fits n.
  Lemma picks_all : forall (P : list nat -> nat -> Prop) pre l out, picks P pre l out -> forall x, In x l -> (forall q, P q x) -> In x out.
  Proof.
    intros P pre l out H. induction H as [pre|pre y l out PY H IH|pre y l out PY H IH]; intros x J Q; [destruct J| |].
    - destruct J as [<-|J]; [left; reflexivity|right; auto].
    - destruct J as [<-|J]; [destruct (PY (Q pre))|auto].
  Qed.
  Lemma trait_ok : forall a t, valid f a -> is_a f AST_TRAIT_DEF t ->
    decided (trait_fits a t)
      (s <- child_text f t IDENT ;; c <- camel s ;; ms <! gen_methods f ask t ;;
       ins <- filter_res (fun n => l <- CodegenModel.ask_traits ask n ;; Ok (existsb (Nat.eqb t) l)) (kids_of f AST_NODE_DEF a) ;;
       l <- flat_map_res (fun n => s <- child_text f n IDENT ;; c <- camel s ;; Ok [c]) ins ;;
       done (mkCtxTrait c ms l)) (trait_is f a t).
  Proof.
    intros a t VA A. apply (named_ok _ AST_TRAIT_DEF); [cbn [In]; auto|exact A|]. intros s c NS C.
    eapply decided_try; [exact (gen_methods_ok t (proj1 A))|]. intros ms F.
    destruct (implementers t (kids_of f AST_NODE_DEF a) []) as (ins & -> & PK); [intros n J; exact (proj2 (kids_of_in f T WF _ _ _ J))|]. cbn [bind].
    assert (PIN : forall n, In n ins -> In n (kids_of f AST_NODE_DEF a) /\ implements f n t).
    { intros n J. split; [exact (picks_in _ _ _ _ _ PK n J)|]. clear -PK J. induction PK as [pre|pre y l out PY H IH|pre y l out PY H IH]; [destruct J| |auto].
      destruct J as [<-|J]; [exact PY|auto]. }
    destruct (camels_cases _ _ (fun n => child_text f n IDENT) (fun n s => name_of f n = Some s) (fun _ c => c) ins) as [(out & -> & FO & NA)|(-> & NA)].
    - intros n J. destruct (name_exists AST_NODE_DEF n) as (s' & NN & E); [cbn [In]; auto|exact (proj2 (kids_of_in f T WF _ _ _ (proj1 (PIN n J))))|].
      exists s'. split; [exact E|]. split; [exact NN|]. intros s'' N'. congruence.
    - cbn [bind]. apply decided_yes.
      + intros n J IM s' NN. apply (NA n s'); [|exact NN]. apply (picks_all _ _ _ _ PK n J). intros _. exact IM.
      + split; [exists s; auto|]. split; [exact F|]. cbn [ct_impl_for]. exists ins. split; [exact PK|]. eapply forall2_weaken; [|exact FO].
        intros n b (s' & c' & NN & CC & ->). exists s'. auto.
    - cbn [bind]. right. split; [|right; reflexivity]. intros H. apply NA. intros n s' J NN. destruct (PIN n J) as (JN & IM). exact (H n JN IM s' NN).
  Qed.

  (** *** The whole definition *)
  Theorem gen_ast_ok : forall a, kid f AST_DEF 0 = Some a -> decided (ast_fits f a) (gen_ast f ask a) (ast_is f a).
  Proof.
    intros a KA. pose proof (kid_valid f T WF _ _ _ KA) as VA. unfold gen_ast.
    rewrite (children_is_v f T WF AST_NODE_DEF a VA), (children_is_v f T WF AST_CLASS_DEF a VA), (children_is_v f T WF AST_TRAIT_DEF a VA). cbn [bind].
    apply (decided_iff _ ((forall n, In n (kids_of f AST_NODE_DEF a) -> node_fits n) /\ (forall n, In n (kids_of f AST_CLASS_DEF a) -> class_fits n) /\
      ((forall t, In t (kids_of f AST_TRAIT_DEF a) -> trait_fits a t) /\ True))).
    { assert (TG : (forall n, In n (kids_of f AST_NODE_DEF a) -> name_fits n) -> (forall n, In n (kids_of f AST_CLASS_DEF a) -> name_fits n) ->
        forall m, method_fits f m -> method_works m).
      { intros HN HC m FM. split; [exact FM|]. intros x s RX NX. destruct (reaches_in m x RX) as (t & JT & JX). unfold ast_parts in JX. rewrite KA in JX.
        cbn [In] in JT. destruct JT as [<-|[<-|[]]]; [exact (HN x JX s NX)|exact (HC x JX s NX)]. }
      split.
      - intros (HN & HC & HT & _). constructor.
        + intros x t s JT JX NX. cbn [In] in JT. destruct JT as [<-|[<-|[<-|[]]]]; [exact (proj1 (HN x JX) s NX)|exact (proj1 (HC x JX) s NX)|exact (proj1 (HT x JX) s NX)].
        + intros x i JX JI. exact (proj2 (HC x JX) i JI).
        + intros x t m JT JX JM. cbn [In] in JT. destruct JT as [<-|[<-|[]]]; [exact (proj1 (proj2 (HN x JX) m JM))|exact (proj1 (proj1 (proj2 (HT x JX)) m JM))].
      - intros [AN AV AM].
        assert (HN : forall n, In n (kids_of f AST_NODE_DEF a) -> name_fits n) by (intros n J s; apply (AN n AST_NODE_DEF); [cbn [In]; auto|exact J]).
        assert (HC : forall n, In n (kids_of f AST_CLASS_DEF a) -> name_fits n) by (intros n J s; apply (AN n AST_CLASS_DEF); [cbn [In]; auto|exact J]).
        split; [|split; [|split; [|exact I]]].
        + intros n J. split; [exact (HN n J)|]. intros m JM. apply (TG HN HC). apply (AM n AST_NODE_DEF m); [cbn [In]; auto|exact J|exact JM].
        + intros n J. split; [exact (HC n J)|]. intros i JI. exact (AV n i J JI).
        + intros t J. split; [intros s; apply (AN t AST_TRAIT_DEF); [cbn [In]; auto|exact J]|]. split.
          * intros m JM. apply (TG HN HC). apply (AM t AST_TRAIT_DEF m); [cbn [In]; auto|exact J|exact JM].
          * intros n JN _. exact (HN n JN). }
    eapply decided_try; [apply (try_list_ok _ _ _ node_fits (node_is f)); intros n J; exact (node_ok n (proj2 (kids_of_in f T WF _ _ _ J)))|]. intros ns FN.
    eapply decided_try; [apply (try_list_ok _ _ _ class_fits (class_is f)); intros n J; exact (class_ok n (proj2 (kids_of_in f T WF _ _ _ J)))|]. intros cs FC.
    eapply decided_try; [apply (try_list_ok _ _ _ (trait_fits a) (trait_is f a)); intros t J; exact (trait_ok a t VA (proj2 (kids_of_in f T WF _ _ _ J)))|]. intros ts FT.
    apply decided_yes; [exact I|]. split; [exact FN|]. split; [exact FC|exact FT].
  Qed.

  (** *** Verbatim code *)
  Lemma verbatim_v : forall trim, (exists o, verbatim f trim = Ok o /\ verbatim_is f trim o) \/ (verbatim f trim = Panic /\ forall o, ~ verbatim_is f trim o).
  Proof.
    intros trim. unfold verbatim, verbatim_is. change root with 0. rewrite (ast_child_v f T WF VERBATIM_DEF 0 (root_valid f T WF)). cbn [bind].
    destruct (kid f VERBATIM_DEF 0) as [n|] eqn:K; [|left; exists None; split; reflexivity].
    pose proof (kid_valid f T WF _ _ _ K) as V. rewrite (child_text_v f T WF CT HASH_STRING n V). destruct (kid f HASH_STRING n) as [m|] eqn:KM; cbn [bind].
    - destruct (lit_body_cases (str f m)) as [(b & -> & B)|(-> & B)]; cbn [bind].
      + left. eexists. split; [reflexivity|]. exists m, b. auto.
      + right. split; [reflexivity|]. intros o (m' & b & E & L & _). injection E as <-. exact (B b L).
    - right. split; [reflexivity|]. intros o (m' & b & E & _). discriminate E.
  Qed.

  (** *** The whole generator *)
  Hypothesis BB : block_bodies f.
  Variable escape debug trim : bytes -> bytes.

  Theorem generate_ok : decided (accepted f escape trim) (generate f ask escape debug trim) (faithful f escape debug trim).
  Proof.
    unfold accepted, generate. rewrite (node_types_v f T WF CT CO). cbn [bind].
    eapply decided_try; [exact (gen_table_ok f T WF CT CO ask HON BB)|]. intros tab (TF & CL & LT).
    eapply decided_try; [exact (gen_lex_ok f T WF CT CO escape debug)|]. intros lex FL.
    destruct (verbatim_v trim) as [(o & -> & VO)|(-> & VO)]; cbn [bind].
    2:{ right. split; [intros ((o & H) & _); exact (VO o H)|right; reflexivity]. }
    apply decided_and; [exists o; exact VO|]. unfold file_ast_def, root. rewrite (ast_child_v f T WF AST_DEF 0 (root_valid f T WF)). cbn [bind].
    unfold faithful. destruct (kid f AST_DEF 0) as [a|] eqn:KA.
    - eapply decided_iff; [|eapply decided_try; [exact (gen_ast_ok a KA)|]]; [instantiate (1 := True); split; [intros (H & _) a' E; injection E as <-; exact H|intros H; split; [exact (H a eq_refl)|exact I]]|].
      intros x AX. apply decided_yes; [exact I|]. cbn [cx_types cx_rules cx_lex cx_verbatim cx_ast]. auto 10.
    - apply decided_yes; [intros a E; discriminate E|]. cbn [cx_types cx_rules cx_lex cx_verbatim cx_ast]. auto 10.
  Qed.

  (** *** No errors *)
  Lemma clean_says : no_errors f -> forall k v ds, reported f k -> says f k v ds -> forall d, In d ds -> d_severity d <> Error.
  Proof.
    intros NE k v ds K S1 d J. destruct (collect_exists f T WF CT CO) as (dd & out & R). apply (NE dd out d R).
    exact (out_about f T WF CT CO dd out R k v ds K S1 d J).
  Qed.

  Hypothesis NE : no_errors f.
  Hypothesis US : usable f.

  Lemma clean_ref : forall n, is_a f REF_EXPR n -> ~ is_context_string f n -> exists k, resolves f n (Some k).
  Proof.
    intros n A NC. destruct (HON (QRef n) A) as (v & _ & AN). destruct (answered_says f T WF CT CO (QRef n) v A AN) as (ds & SY).
    pose proof SY as (o & -> & RS & D). destruct o as [k|]; [exists k; exact RS|]. exfalso.
    destruct D as [(_ & _ & ->)|([H|H] & _)]; [|exact (H eq_refl)|exact (NC H)].
    exact (clean_says NE (QRef n) _ _ A SY _ (or_introl eq_refl) eq_refl).
  Qed.
  Lemma clean_call : forall n, is_a f CALL_EXPR n -> exists k, call_is f n k /\ (forall rs, k = CkPrevIs rs -> public_args f (exprs f n) rs 0).
  Proof.
    intros n A. destruct (HON (QCall n) A) as (v & _ & AN). destruct (answered_says f T WF CT CO (QCall n) v A AN) as (ds & SY).
    pose proof SY as (o & -> & CM). pose proof (clean_says NE (QCall n) _ _ A SY) as CL.
    assert (AE : forall k, length (exprs f n) <> k -> exists d, In d (arity_error f k n) /\ d_severity d = Error).
    { intros k H. unfold arity_error. apply Nat.eqb_neq in H. rewrite H. eexists. split; [left; reflexivity|reflexivity]. }
    destruct o as [k|].
    - exists k. split; [exists ds; exact CM|]. intros rs ->. inversion CM; subst. destruct k as [|k]; [assumption|].
      exfalso. exact (CL _ (or_introl eq_refl) eq_refl).
    - exfalso. inversion CM; subst.
      + apply (CL (error_at f a MContextString)); [apply in_or_app; right; left; reflexivity|reflexivity].
      + destruct (AE k ltac:(lia)) as (d & J & SV). exact (CL d J SV).
      + exact (CL _ (or_introl eq_refl) eq_refl).
  Qed.

  (** Expressions that are compiled are neither names of contexts nor commits. *)
  Definition live (e : nat) : Prop := ~ is_context_string f e /\ (forall p, par f e = Some p -> ty f p = SEQ_EXPR -> is_commit_part f e = false).

  Lemma context_call : forall n s, named f s n -> ~ In s context_functions -> forall c, In c (exprs f n) -> ~ is_context_string f c.
  Proof.
    intros n s N NI c J (p & b & P & _ & (fn & _ & _ & NF & IN & _) & _). destruct (exprs_in f T WF n c J) as (_ & P' & _). rewrite P in P'. injection P' as ->.
    rewrite (named_fun f s fn n N NF) in NI. exact (NI IN).
  Qed.
  Lemma second_arg : forall n a b l, exprs f n = a :: b :: l -> ~ is_context_string f b.
  Proof.
    intros n a b l E (p & c & P & _ & _ & HD). assert (J : In b (exprs f n)) by (rewrite E; right; left; reflexivity).
    destruct (exprs_in f T WF n b J) as (_ & P' & _). rewrite P in P'. injection P' as ->. rewrite E in HD. cbn [hd_error] in HD. injection HD as ->.
    pose proof (kids_nodup f T WF n) as ND. apply (NoDup_filter (fun c => is_expr (ty f c))) in ND. unfold exprs in E. rewrite E in ND. inversion ND; subst.
    apply H1. left. reflexivity.
  Qed.
  Lemma call_live : forall n c, is_a f CALL_EXPR n -> In c (exprs f n) -> ~ is_context_string f c -> live c.
  Proof.
    intros n c (_ & TN) J NC. split; [exact NC|]. intros p P TP. exfalso. destruct (exprs_in f T WF n c J) as (_ & P' & _). rewrite P in P'. injection P' as ->.
    rewrite TN in TP. discriminate TP.
  Qed.
  Lemma plain_live : forall n c, ty f n <> CALL_EXPR -> ty f n <> SEQ_EXPR -> In c (exprs f n) -> live c.
  Proof.
    intros n c N1 N2 J. destruct (exprs_in f T WF n c J) as (_ & P' & _). split.
    - intros (p & b & P & TP & _). rewrite P in P'. injection P' as ->. exact (N1 TP).
    - intros p P TP. rewrite P in P'. injection P' as ->. destruct (N2 TP).
  Qed.
  Lemma seq_live : forall n c, ty f n = SEQ_EXPR -> In c (exprs f n) -> is_commit_part f c = false -> live c.
  Proof.
    intros n c TN J CP. split; [|intros; exact CP]. intros (p & b & P & TP & _). destruct (exprs_in f T WF n c J) as (_ & P' & _).
    rewrite P in P'. injection P' as ->. rewrite TN in TP. discriminate TP.
  Qed.

  Lemma prev_types_ok : forall l rs k, public_args f l rs k -> (forall a, In a l -> valid f a) -> forall r, In r rs -> exists s, makes_type f r s /\ In r (rules f).
  Proof.
    intros l rs k P. induction P as [|a r s l rs k TA RS MT P IH|a l rs k NA P IH]; intros VL x J; [destruct J| |].
    - destruct J as [<-|J]; [|exact (IH (fun y JY => VL y (or_intror JY)) x J)]. exists s. split; [exact MT|].
      exact (resolves_rule f a r RS).
    - exact (IH (fun y JY => VL y (or_intror JY)) x J).
  Qed.

  Lemma clean_expr : forall k e, valid f e -> is_expr (ty f e) = true -> length nodes - e <= k -> live e -> compilable f e.
  Proof.
    intros k. induction k as [|k IH]; intros e V XE L (NC & CP); [unfold valid in V; lia|].
    assert (SUB : forall c, In c (exprs f e) -> live c -> compilable f c).
    { intros c J LC. destruct (exprs_in f T WF e c J) as (VC & PC & XC). destruct (par_in f T WF c e VC PC) as (_ & LT & _).
      apply IH; [exact VC|exact XC|unfold valid in VC; lia|exact LC]. }
    destruct (expr_cases f e XE) as [E|[E|[E|[E|[E|E]]]]].
    all: try (match type of E with _ = BLOCK_EXPR => idtac end;
      apply k_block; [exact E|]; intros a J; apply SUB; [exact J|]; apply (plain_live e); [rewrite E; discriminate|rewrite E; discriminate|exact J]).
    all: try (match type of E with _ = SEQ_EXPR => idtac end;
      apply k_seq; [exact E|]; intros a J NP; apply SUB; [exact J|]; exact (seq_live e a E J NP)).
    all: try (match type of E with _ = REF_EXPR => idtac end;
      destruct (clean_ref e (conj V E) NC) as ([t|r|p] & RS);
        [apply (k_token f e t E RS); apply (us_contextual f US); exact (resolves_token f e t RS)
        |exact (k_rule f e r E RS)|exact (k_param f e p E RS)]).
    all: try (match type of E with _ = OPT_EXPR => idtac | _ = REP_EXPR => idtac end;
      destruct (exprs f e) as [|a l] eqn:EE; [exfalso; refine (us_inner f US e _ EE); unfold is_a; auto|];
      apply (k_opt f e a l); [auto|exact EE|]; apply SUB; [left; reflexivity|]; apply (plain_live e); [rewrite E; discriminate|rewrite E; discriminate|rewrite EE; left; reflexivity]).
    destruct (clean_call e (conj V E)) as (kk & CI & PV). pose proof CI as (ds & CM).
    assert (ARG : forall c s, named f s e -> ~ In s context_functions -> In c (exprs f e) -> compilable f c).
    { intros c s N NI J. apply SUB; [exact J|]. apply (call_live e c (conj V E) J). exact (context_call e s N NI c J). }
    assert (SND : forall a b l, exprs f e = a :: b :: l -> compilable f b).
    { intros a b l EX. assert (J : In b (exprs f e)) by (rewrite EX; right; left; reflexivity). apply SUB; [exact J|]. apply (call_live e b (conj V E) J). exact (second_arg e a b l EX). }
    assert (NIN : forall s, In s [s_not; s_layer; s_with_skip; s_inject] -> ~ In s context_functions).
    { intros s J K. cbn [In context_functions] in J, K. destruct J as [<-|[<-|[<-|[<-|[]]]]]; destruct K as [K|[K|[K|[]]]]; discriminate K. }
    inversion CM; subst kk; subst.
    - apply (k_call0 f e CkAny E CI). auto.
    - exfalso. match goal with H : named f s_commit e |- _ => destruct (us_commit f US e (conj V E) H) as (IC & p & P & TP) end. rewrite (CP p P TP) in IC. discriminate IC.
    - apply (k_call0 f e CkEof E CI). auto.
    - apply (k_call1 f e (CkNot a) a E CI); [auto|]. apply (ARG a s_not); [assumption|apply NIN; cbn [In]; auto|]. match goal with H : exprs f e = _ |- _ => rewrite H end. left. reflexivity.
    - apply (k_call2 f e (CkLayer a b) a b E CI); [auto| |]; apply (ARG _ s_layer); try assumption; try (apply NIN; cbn [In]; auto); match goal with H : exprs f e = _ |- _ => rewrite H end; cbn [In]; auto.
    - apply (k_call2 f e (CkWithSkip a b) a b E CI); [auto| |]; apply (ARG _ s_with_skip); try assumption; try (apply NIN; cbn [In]; auto); match goal with H : exprs f e = _ |- _ => rewrite H end; cbn [In]; auto.
    - apply (k_call2 f e (CkInject a b) a b E CI); [auto| |]; apply (ARG _ s_inject); try assumption; try (apply NIN; cbn [In]; auto 6); match goal with H : exprs f e = _ |- _ => rewrite H end; cbn [In]; auto.
    - apply (k_call0 f e (CkIsIn i) E CI). right. right. exists i. reflexivity.
    - apply (k_call1 f e (CkEnter i b) b E CI); [right; exists i; auto|]. eapply SND. eassumption.
    - apply (k_call1 f e (CkExit i b) b E CI); [right; exists i; auto|]. eapply SND. eassumption.
    - apply (k_prev_is f e rs E CI). intros r J.
      destruct (prev_types_ok _ _ _ (PV rs eq_refl) (fun a JA => proj1 (exprs_in f T WF e a JA)) r J) as (s & MT & IR).
      destruct (us_types f US r s IR MT) as (i & TN). exists i, s. auto.
    - apply (k_call f e r (combine (params f r) (exprs f e)) E CI). intros p a J. apply in_combine_r in J.
      match goal with H : calls_rule f e r |- _ => destruct H as (s & NS & NB & _) end. apply (ARG a s NS); [|exact J].
      intros IN. apply NB. cbn [In context_functions] in IN. destruct IN as [<-|[<-|[<-|[]]]]; unfold builtins; cbn [In]; auto 20.
  Qed.

  Theorem clean_rules : forall r, In r (rules f) -> compilable_rule f r.
  Proof.
    intros r IR. destruct (BB r IR) as (b & l & EB & TB). exists b, l. split; [exact EB|].
    assert (JB : In b (exprs f r)) by (rewrite EB; left; reflexivity). destruct (exprs_in f T WF r b JB) as (VB & PB & XB).
    pose proof (rules_in f T WF r IR) as (VR & TR). split; [|split].
    - intros HR. destruct (us_replaces f US r IR HR) as (s & MT). destruct (us_types f US r s IR MT) as (i & TN). exists i, s. auto.
    - intros _. apply (clean_expr (length nodes) b VB XB ltac:(lia)). apply (plain_live r); [rewrite TR; discriminate|rewrite TR; discriminate|exact JB].
    - intros HP. split; [exact TB|]. intros a JA. destruct (us_pratt f US r b a IR HP) as (x & s & v & AL & MT & VA & NCP); [rewrite EB; reflexivity|exact JA|].
      assert (IX : In x (rules f)) by (destruct AL as (_ & p & l' & _ & _ & RS); exact (resolves_rule f p x RS)).
      destruct (us_types f US x s IX MT) as (i & TN). exists x, i, v. split; [exact AL|]. split; [exists s; auto|]. split; [exact VA|].
      intros op EO. assert (OPS : exists q, ty f q = SEQ_EXPR /\ In op (exprs f q)).
      { destruct VA as (ds & PM). destruct v as [b'|op' p|op' p|op' p]; cbn [operator_of] in EO; try discriminate EO; injection EO as ->; inversion PM; subst;
          match goal with H : body_parts _ _ _ _ |- _ => destruct H as (_ & _ & q & _ & TQ & EQ) end; exists q; (split; [exact TQ|]); rewrite EQ; cbn [In]; auto. }
      destruct OPS as (q & TQ & JQ). destruct (exprs_in f T WF q op JQ) as (VO & PO & XO).
      apply (clean_expr (length nodes) op VO XO ltac:(lia)). exact (seq_live q op TQ JQ (NCP op EO)).
  Qed.
End Ast.
