(** The generated table is that of the grammar file. *)
From Coq Require Import List Arith Bool Lia NArith.
From Verif Require Import Base BaseFacts TextModel TreeModel SearchModel IndexModel DbModel DbSpec DbProofs DbTrace AnalysisModel RefModel GrammarModel CodegenModel
  TextSpec TreeSpec SearchSpec FileEditSpec EditorSpec IndexSpec AnalysisSpec RefSpec CodegenSpec
  TextProofs TreeProofs SearchProofs TraversalProofs EditorProofs IndexProofs ViewProofs AnalysisProofs CollectProofs RunProofs MeansFacts AnalysisFacts RefProofs.
Import ListNotations.

(** ** Outcomes *)
Definition rejects {A} (x : outcome A) : Prop := x = Ok None \/ x = Panic.
(** [x] succeeds exactly if [P] holds, and then with [Q]. *)
Definition decided {A} (P : Prop) (x : outcome A) (Q : A -> Prop) : Prop :=
  (P /\ exists a, x = Ok (Some a) /\ Q a) \/ (~ P /\ rejects x).

Lemma try_some : forall A B (a : A) (k : A -> outcome B), try (Ok (Some a)) k = k a.
Proof. reflexivity. Qed.
Lemma try_rejects : forall A B (x : outcome A) (k : A -> outcome B), rejects x -> rejects (try x k).
Proof. intros A B x k [->| ->]; [left|right]; reflexivity. Qed.
Lemma decided_iff : forall A (P P' : Prop) (x : outcome A) Q, (P <-> P') -> decided P x Q -> decided P' x Q.
Proof. intros A P P' x Q I [(H & E)|(H & E)]; [left|right]; tauto. Qed.
Lemma decided_weak : forall A (P : Prop) (x : outcome A) (Q Q' : A -> Prop), (forall a, Q a -> Q' a) -> decided P x Q -> decided P x Q'.
Proof. intros A P x Q Q' I [(H & a & E & q)|(H & E)]; [left; split; [exact H|exists a; split; [exact E|exact (I a q)]]|right; tauto]. Qed.
Lemma decided_try : forall A B (P P' : Prop) (x : outcome A) (k : A -> outcome B) Q Q',
  decided P x Q -> (forall a, Q a -> decided P' (k a) Q') -> decided (P /\ P') (try x k) Q'.
Proof.
  intros A B P P' x k Q Q' [(H & a & -> & q)|(H & E)] K.
  - rewrite try_some. destruct (K a q) as [(H' & X)|(H' & X)]; [left|right]; tauto.
  - right. split; [tauto|]. exact (try_rejects _ _ _ _ E).
Qed.
Lemma decided_yes : forall A (P : Prop) (a : A) (Q : A -> Prop), P -> Q a -> decided P (done a) Q.
Proof. intros A P a Q H q. left. split; [exact H|]. exists a. split; [reflexivity|exact q]. Qed.
Lemma decided_some : forall A (P : Prop) x (Q : A -> Prop) a, decided P x Q -> x = Ok (Some a) -> P /\ Q a.
Proof. intros A P x Q a [(H & b & E & q)|(H & [E|E])] X; [|congruence|congruence]. split; [exact H|]. congruence. Qed.
Lemma decided_fuel : forall A (P : Prop) x (Q : A -> Prop), decided P x Q -> x <> OutOfFuel.
Proof. intros A P x Q [(H & b & E & q)|(H & [E|E])]; congruence. Qed.

(** ** Lists *)
Lemma position_first : forall A (p : A -> bool) l, match position p l with
  | Some i => exists pre a post, l = pre ++ a :: post /\ p a = true /\ (forall x, In x pre -> p x = false) /\ i = length pre
  | None => forall x, In x l -> p x = false end.
Proof.
  intros A p l. induction l as [|a l IH]; cbn [position]; [intros x []|]. destruct (p a) eqn:E.
  - exists [], a, l. cbn [app length]. repeat split; [exact E|intros x []].
  - destruct (position p l) as [i|]; cbn [option_map].
    + destruct IH as (pre & b & post & -> & B & C & ->). exists (a :: pre), b, post. cbn [app length]. repeat split; [exact B|].
      intros x [<-|I]; [exact E|exact (C x I)].
    + intros x [<-|I]; [exact E|exact (IH x I)].
Qed.
Lemma position_in : forall n l, In n l -> exists i, position (Nat.eqb n) l = Some i /\ nth_error l i = Some n.
Proof.
  intros n l I. pose proof (position_first _ (Nat.eqb n) l) as P. destruct (position (Nat.eqb n) l) as [i|].
  - destruct P as (pre & a & post & -> & E & _ & ->). apply Nat.eqb_eq in E. subst a. exists (length pre). split; [reflexivity|].
    rewrite nth_error_app2 by lia. rewrite Nat.sub_diag. reflexivity.
  - specialize (P n I). rewrite Nat.eqb_refl in P. discriminate P.
Qed.
Lemma flat_map_pure : forall A B (g : A -> res (list B)) (h : A -> list B) l,
  (forall a, In a l -> g a = Ok (h a)) -> flat_map_res g l = Ok (flat_map h l).
Proof.
  intros A B g h l E. induction l as [|a l IH]; [reflexivity|]. cbn [flat_map_res flat_map]. rewrite (E a (or_introl eq_refl)). cbn [bind].
  rewrite (IH (fun x I => E x (or_intror I))). reflexivity.
Qed.
Lemma forall2_app : forall A B (P : A -> B -> Prop) l l' m m', Forall2 P l m -> Forall2 P l' m' -> Forall2 P (l ++ l') (m ++ m').
Proof. intros A B P l l' m m' F F'. induction F; [exact F'|]. cbn [app]. constructor; assumption. Qed.

(** ** Literals *)
Lemma rfind_none : forall q s, rfind_byte q s = None -> ~ In q s.
Proof.
  intros q s. induction s as [|b s IH]; cbn [rfind_byte]; intros E; [intros []|]. destruct (rfind_byte q s); [discriminate E|].
  destruct (b =? q) eqn:B; [discriminate E|]. apply Nat.eqb_neq in B. intros [I|I]; [exact (B I)|exact (IH eq_refl I)].
Qed.
Lemma rfind_some : forall q s i, rfind_byte q s = Some i -> exists pre post, s = pre ++ q :: post /\ length pre = i /\ ~ In q post.
Proof.
  intros q s. induction s as [|b s IH]; cbn [rfind_byte]; intros i E; [discriminate E|]. destruct (rfind_byte q s) as [j|] eqn:R.
  - injection E as <-. destruct (IH j eq_refl) as (pre & post & -> & L & N). exists (b :: pre), post. cbn [app length]. repeat split; [|exact N]. congruence.
  - destruct (b =? q) eqn:B; [|discriminate E]. injection E as <-. apply Nat.eqb_eq in B. subst b. exists [], s. repeat split. exact (rfind_none _ _ R).
Qed.
Lemma rfind_is : forall q pre post, ~ In q post -> rfind_byte q (pre ++ q :: post) = Some (length pre).
Proof.
  intros q pre post N. assert (R : rfind_byte q post = None).
  { destruct (rfind_byte q post) as [i|] eqn:E; [|reflexivity]. destruct (rfind_some _ _ _ E) as (a & b & -> & _). exfalso. apply N. apply in_or_app. right. left. reflexivity. }
  induction pre as [|b pre IH]; cbn [app rfind_byte length]; [rewrite R, Nat.eqb_refl; reflexivity|]. rewrite IH. reflexivity.
Qed.
Lemma find1_is : forall q pre post, ~ In q pre -> find_sub [q] (pre ++ q :: post) = Some (length pre).
Proof.
  intros q pre. induction pre as [|b pre IH]; intros post N; cbn [app find_sub length is_prefix].
  - rewrite Nat.eqb_refl. reflexivity.
  - destruct (q =? b) eqn:E; [apply Nat.eqb_eq in E; exfalso; apply N; left; congruence|]. cbn [andb].
    rewrite IH; [reflexivity|]. intros I. apply N. right. exact I.
Qed.
Lemma find1_none : forall q s, find_sub [q] s = None -> ~ In q s.
Proof.
  intros q s. induction s as [|b s IH]; intros E; [intros []|]. cbn [find_sub is_prefix] in E. destruct (q =? b) eqn:B; cbn [andb] in E; [discriminate E|].
  destruct (find_sub [q] s); [discriminate E|]. apply Nat.eqb_neq in B. intros [I|I]; [congruence|exact (IH eq_refl I)].
Qed.

Lemma lit_body_is : forall s b, literal_body s b -> lit_body s = Ok b.
Proof.
  intros s b (pre & post & E & N1 & N2). unfold lit_body. fold (quote_of s). set (q := quote_of s) in *. clearbody q. subst s.
  rewrite (find1_is q pre (b ++ q :: post) N1). cbn [unwrap bind].
  replace (pre ++ q :: b ++ q :: post) with ((pre ++ q :: b) ++ q :: post) by (rewrite <- app_assoc; reflexivity).
  rewrite (rfind_is q _ _ N2). cbn [unwrap bind]. rewrite app_length. cbn [length].
  replace (length pre + 1 <=? length pre + S (length b)) with true by (symmetry; apply Nat.leb_le; lia). cbn [guard]. f_equal. unfold sub.
  rewrite <- app_assoc. cbn [app]. rewrite skipn_app. replace (length pre + 1 - length pre) with 1 by lia.
  rewrite (skipn_all2 pre) by lia. cbn [app skipn]. rewrite firstn_app.
  replace (length pre + S (length b) - (length pre + 1)) with (length b) by lia. rewrite Nat.sub_diag, firstn_all. cbn [firstn]. apply app_nil_r.
Qed.

Lemma lit_body_cases : forall s, (exists b, lit_body s = Ok b /\ literal_body s b) \/ (lit_body s = Panic /\ forall b, ~ literal_body s b).
Proof.
  intros s. assert (D : (exists b, literal_body s b) \/ (lit_body s = Panic)).
  { unfold literal_body, lit_body. fold (quote_of s). set (q := quote_of s). clearbody q.
    destruct (find_sub [q] s) as [i|] eqn:F; [|right; reflexivity]. cbn [unwrap bind].
    destruct (rfind_byte q s) as [e|] eqn:R; [|right; reflexivity]. cbn [unwrap bind].
    destruct (i + 1 <=? e) eqn:L; [|right; reflexivity]. apply Nat.leb_le in L. left.
    destruct (rfind_some _ _ _ R) as (a & post & E & LA & N2).
    assert (IA : In q a).
    { destruct (in_dec Nat.eq_dec q a) as [I|NI]; [exact I|exfalso]. rewrite E in F. rewrite (find1_is q a post NI) in F. injection F as F. lia. }
    apply in_split in IA. destruct (position (Nat.eqb q) a) as [k|] eqn:P.
    - pose proof (position_first _ (Nat.eqb q) a) as PF. rewrite P in PF. destruct PF as (pre & x & b & EA & X & N1 & _).
      apply Nat.eqb_eq in X. subst x. exists b, pre, post. split; [rewrite E, EA, <- app_assoc; reflexivity|]. split; [|exact N2].
      intros I. specialize (N1 q I). rewrite Nat.eqb_refl in N1. discriminate N1.
    - pose proof (position_first _ (Nat.eqb q) a) as PF. rewrite P in PF. destruct IA as (x & y & ->).
      specialize (PF q ltac:(apply in_or_app; right; left; reflexivity)). rewrite Nat.eqb_refl in PF. discriminate PF. }
  destruct D as [(b & B)|P].
  - left. exists b. split; [exact (lit_body_is s b B)|exact B].
  - right. split; [exact P|]. intros b B. rewrite (lit_body_is s b B) in P. discriminate P.
Qed.
Lemma literal_fun : forall s b b', literal_body s b -> literal_body s b' -> b = b'.
Proof. intros s b b' H H'. apply lit_body_is in H. apply lit_body_is in H'. congruence. Qed.

(** ** Growing tables *)
Section Tables.
  Variable f : file.
  Notation rules := (rules f).
  Notation R := (length rules).

  Definition grows (tab tab' : list expr) : Prop := forall i x, R <= i -> nth_error tab i = Some x -> nth_error tab' i = Some x.

  Lemma grows_refl : forall tab, grows tab tab.
  Proof. intros tab i x _ E. exact E. Qed.
  Lemma grows_trans : forall a b c, grows a b -> grows b c -> grows a c.
  Proof. intros a b c H1 H2 i x L E. exact (H2 i x L (H1 i x L E)). Qed.
  Lemma grows_app : forall tab more, grows tab (tab ++ more).
  Proof. intros tab more i x _ E. rewrite nth_error_app1; [exact E|]. apply nth_error_Some. congruence. Qed.
  Lemma grows_set : forall tab i x, i < R -> grows tab (set_nth i x tab).
  Proof. intros tab i x L j y LJ E. rewrite nth_error_set_nth_neq by lia. exact E. Qed.

  Section Mono.
  Variables (tab tab' : list expr).
  Hypothesis G : grows tab tab'.
  Fixpoint compiled_mono e i (H : compiled f tab e i) {struct H} : compiled f tab' e i
  with written_mono e x (H : written f tab e x) {struct H} : written f tab' e x.
  Proof.
    - destruct H as [e r i A B C|e x i A B C]; [exact (c_rule f tab' e r i A B C)|].
      exact (c_entry f tab' e x i A (G i x A B) (written_mono e x C)).
    - assert (FM : forall l l', Forall2 (compiled f tab) l l' -> Forall2 (compiled f tab') l l').
      { intros l l' F. induction F as [|a b la lb C F IH]; constructor; [exact (compiled_mono a b C)|exact IH]. }
      destruct H as [e l A B|e l c A B C|e t i A B C D|e t i b A B C D E|e p i A B C|e a l i A B C|e a l i A B C|e A B|e A B|e a i A B C
        |e a b i j A B C D|e a b i j A B C D|e a b i j A B C D|e c a i A B C|e c a i A B C|e c A B|e r i args l A B C D E|e rs l A B C].
      + exact (w_block f tab' e l A (FM _ _ B)).
      + exact (w_seq f tab' e l c A (FM _ _ B) C).
      + exact (w_token f tab' e t i A B C D).
      + exact (w_contextual f tab' e t i b A B C D E).
      + exact (w_param f tab' e p i A B C).
      + exact (w_opt f tab' e a l i A B (compiled_mono _ _ C)).
      + exact (w_rep f tab' e a l i A B (compiled_mono _ _ C)).
      + exact (w_eof f tab' e A B).
      + exact (w_any f tab' e A B).
      + exact (w_not f tab' e a i A B (compiled_mono _ _ C)).
      + exact (w_layer f tab' e a b i j A B (compiled_mono _ _ C) (compiled_mono _ _ D)).
      + exact (w_with_skip f tab' e a b i j A B (compiled_mono _ _ C) (compiled_mono _ _ D)).
      + exact (w_inject f tab' e a b i j A B (compiled_mono _ _ C) (compiled_mono _ _ D)).
      + exact (w_enter f tab' e c a i A B (compiled_mono _ _ C)).
      + exact (w_exit f tab' e c a i A B (compiled_mono _ _ C)).
      + exact (w_is_in f tab' e c A B).
      + exact (w_call f tab' e r i args l A B C D (FM _ _ E)).
      + exact (w_prev_is f tab' e rs l A B C).
  Qed.
  Lemma compileds_mono : forall l l', Forall2 (compiled f tab) l l' -> Forall2 (compiled f tab') l l'.
  Proof. intros l l' F. induction F as [|a b la lb C F IH]; constructor; [exact (compiled_mono a b C)|exact IH]. Qed.
  Lemma operators_mono : forall l a p x, operators f tab l a p x -> operators f tab' l a p x.
  Proof.
    intros l a p x H. induction H as [|a r t b i l at_ px ix A B C D H IH|a r t op p i l at_ px ix A B C D H IH|a r t op p i l at_ px ix A B C D H IH|a r t op p i l at_ px ix A B C D H IH].
    - constructor.
    - exact (o_atom f tab' a r t b i l at_ px ix A B C D IH).
    - exact (o_prefix f tab' a r t op p i l at_ px ix A B C (compiled_mono _ _ D) IH).
    - exact (o_postfix f tab' a r t op p i l at_ px ix A B C (compiled_mono _ _ D) IH).
    - exact (o_bin f tab' a r t op p i l at_ px ix A B C (compiled_mono _ _ D) IH).
  Qed.
  Lemma body_mono : forall r x, body_is f tab r x -> body_is f tab' r x.
  Proof.
    intros r x [b l y A B C|b l a p i A B C D]; [exact (b_plain f tab' r b l y A B (written_mono _ _ C))|].
    exact (b_pratt f tab' r b l a p i A B C (operators_mono _ _ _ _ D)).
  Qed.
  Lemma body_at_mono : forall r i, body_at f tab r i -> body_at f tab' r i.
  Proof. intros r i (L & x & E & B). split; [exact L|]. exists x. split; [exact (G i x L E)|exact (body_mono r x B)]. Qed.
  Lemma rule_mono : forall r x, rule_is f tab r x -> rule_is f tab' r x.
  Proof.
    intros r x [t i A B C D|t i j A B C D E H|t i A B C|i A B C D|y A B C D].
    - exact (r_node f tab' r t i A B C (body_at_mono _ _ D)).
    - exact (r_cached_node f tab' r t i j A B C (body_at_mono _ _ D) E (G j _ E H)).
    - exact (r_replace f tab' r t i A B (body_at_mono _ _ C)).
    - exact (r_cached f tab' r i A B C (body_at_mono _ _ D)).
    - exact (r_body f tab' r y A B C (body_mono _ _ D)).
  Qed.
  End Mono.

  (** ** Tables without dangling references *)
  Section Closed.
  Variable tab : list expr.
  Hypothesis RT : R <= length tab.
  Lemma compiled_bound : forall e i, compiled f tab e i -> i < length tab.
  Proof.
    intros e i [e0 r j A B C|e0 x j A B C].
    - apply Nat.lt_le_trans with (m := R); [|exact RT]. apply nth_error_Some. rewrite C. discriminate.
    - apply nth_error_Some. congruence.
  Qed.
  Lemma compileds_bound : forall l l', Forall2 (compiled f tab) l l' -> Forall (fun i => i < length tab) l'.
  Proof. intros l l' F. induction F as [|a b la lb C F IH]; constructor; [exact (compiled_bound a b C)|exact IH]. Qed.
  End Closed.
End Tables.

(** ** The generator *)
Section Gen.
  Variables (f : file) (T : tree).
  Hypothesis WF : wf_file f T.
  Hypothesis CT : char_tree (f_text f) T.
  Hypothesis CO : complete f.
  Variable ask : key -> res value.
  Hypothesis HON : honest f ask.
  Notation nodes := (f_nodes f).
  Notation rules := (rules f).
  Notation R := (length rules).

  Lemma kids_of_v : forall t n, valid f n -> children_of_type nodes n t = Ok (kids_of f t n).
  Proof.
    intros t n V. unfold children_of_type. rewrite (kids_v f n V). cbn [bind].
    apply filter_res_pure. intros c I. rewrite (ty_v f c (kids_valid f T WF _ _ I)). reflexivity.
  Qed.

  Lemma has_attr_iff : forall r s, has_attr f r s = true <-> exists x, attr f r s x.
  Proof.
    intros r s. unfold has_attr, attr. destruct (kid f ATTRIBUTES r) as [a|].
    2:{ split; [discriminate|]. intros (x & a & E & _). discriminate E. }
    assert (FG : forall x, In x (kids_of f ATTRIBUTE a) -> (match name_of f x with Some y => bytes_eqb y s | None => false end) = true <-> named f s x).
    { intros x _. unfold named. destruct (name_of f x) as [y|]; [|split; discriminate]. rewrite bytes_eqb_spec. split; [intros ->; reflexivity|intros E; injection E as ->; reflexivity]. }
    pose proof (find_first_such _ _ _ _ FG) as FF. rewrite existsb_exists. split.
    - intros (x & I & E). destruct (find_first _ _) as [y|].
      + exists y, a. split; [reflexivity|exact FF].
      + exfalso. apply (FF x I). exact (proj1 (FG x I) E).
    - intros (x & a' & E & H). injection E as <-. exists x. pose proof (first_such_in _ _ _ _ H) as I. split; [exact I|].
      apply (FG x I). destruct H as (p & q & _ & N & _). exact N.
  Qed.
  Lemma has_attr_none : forall r s, has_attr f r s = false <-> no_attr f r s.
  Proof.
    intros r s. unfold no_attr. destruct (has_attr f r s) eqn:E.
    - split; [discriminate|]. intros N. apply has_attr_iff in E. destruct E as (x & A). destruct (N x A).
    - split; [|reflexivity]. intros _ x A. assert (has_attr f r s = true) by (apply has_attr_iff; exists x; exact A). congruence.
  Qed.
  Lemma has_attribute_v : forall r s, valid f r -> has_attribute f r s = Ok (has_attr f r s).
  Proof.
    intros r s V. unfold has_attribute. destruct (attr_v f T WF CT CO r s V) as (o & -> & O). cbn [bind]. destruct o as [x|].
    - rewrite (proj2 (has_attr_iff r s) (ex_intro _ x O)). reflexivity.
    - rewrite (proj2 (has_attr_none r s) O). reflexivity.
  Qed.
  Lemma is_pratt_v : forall r, valid f r -> is_pratt f r = Ok (has_attr f r s_pratt).
  Proof. intros r V. exact (has_attribute_v r s_pratt V). Qed.

  (** *** Types *)
  Lemma node_types_v : node_types f = Ok (type_list f).
  Proof.
    unfold node_types. rewrite (lex_rules_v f T WF). cbn [bind].
    rewrite (flat_map_pure _ _ _ (fun t => match name_of f t with Some s => [(s, has_attr f t s_skip)] | None => [] end)).
    2:{ intros t I. apply (tokens_in f T WF) in I. destruct (named_of f T WF CT CO LEX_RULE t ltac:(cbn [In]; tauto) I) as (s & N & E).
        unfold node_type. rewrite E, N. cbn [bind]. rewrite (has_attribute_v t s_skip (proj1 I)). reflexivity. }
    cbn [bind]. rewrite (syn_rules_v f T WF). cbn [bind].
    rewrite (flat_map_pure _ _ _ (fun r => match kid f PUB r, has_attr f r s_type, name_of f r with Some _, false, Some s => [(s, false)] | _, _, _ => [] end)).
    2:{ intros r I. apply (rules_in f T WF) in I. pose proof (proj1 I) as V. unfold is_pub. rewrite (child_of_type_v f T WF PUB r V). cbn [bind].
        destruct (kid f PUB r) as [p|]; [|reflexivity]. cbn [negb]. pose proof (has_attribute_v r s_type V) as HA. unfold has_attribute in HA.
        destruct (find_attribute f r s_type) as [[x|]| |]; cbn [bind] in *; try discriminate HA; injection HA as <-.
        - reflexivity.
        - rewrite (rule_name_v f T WF CT r V). cbn [bind]. destruct (name_of f r); reflexivity. }
    reflexivity.
  Qed.

  Lemma type_ref_is : forall s, match type_ref (type_list f) s with Some i => type_number f s i | None => forall i, ~ type_number f s i end.
  Proof.
    intros s. unfold type_ref. pose proof (position_first _ (fun x : bytes * bool => bytes_eqb (fst x) s) (type_list f)) as P.
    destruct (position _ (type_list f)) as [i|]; cbn [option_map].
    - destruct P as (pre & (s', b) & post & E & B & N & ->). cbn [fst] in B. apply bytes_eqb_spec in B. subst s'. exists pre, b, post. split; [exact E|].
      split; [|reflexivity]. intros I. apply in_map_iff in I. destruct I as ((s', b') & E' & I). cbn [fst] in E'. subst s'. specialize (N _ I). cbn [fst] in N.
      rewrite (proj2 (bytes_eqb_spec s s) eq_refl) in N. discriminate N.
    - intros i (pre & b & post & E & _). specialize (P (s, b)). rewrite E in P. specialize (P ltac:(apply in_or_app; right; left; reflexivity)). cbn [fst] in P.
      rewrite (proj2 (bytes_eqb_spec s s) eq_refl) in P. discriminate P.
  Qed.
  Lemma type_number_fun : forall s i j, type_number f s i -> type_number f s j -> i = j.
  Proof.
    intros s i j (p & b & q & E & N & ->) (p' & b' & q' & E' & N' & ->). f_equal. rewrite E in E'. clear E.
    revert p' E' N'. induction p as [|x p IH]; intros [|y p'] E N'; cbn [app length map fst] in *.
    - reflexivity.
    - injection E as <- _. exfalso. apply N'. left. reflexivity.
    - injection E as -> _. exfalso. apply N. left. reflexivity.
    - injection E as -> E. f_equal. apply IH; [intros I; apply N; right; exact I|exact E|intros I; apply N'; right; exact I].
  Qed.
  Lemma makes_type_fun : forall r s s', makes_type f r s -> makes_type f r s' -> s = s'.
  Proof.
    intros r s s' (_ & _ & [(x & A & B)|(A & B)]) (_ & _ & [(x' & A' & B')|(A' & B')]).
    - rewrite (attr_fun f r s_type x x' A A') in B. congruence.
    - destruct (A' x A).
    - destruct (A x' A').
    - congruence.
  Qed.
  Lemma rule_type_fun : forall r i j, rule_type f r i -> rule_type f r j -> i = j.
  Proof.
    intros r i j (s & A & B) (s' & A' & B'). rewrite (makes_type_fun r s s' A A') in B. exact (type_number_fun _ _ _ B B').
  Qed.
  Lemma syn_rule_ty_v : forall r, valid f r -> exists o, syn_rule_ty f (type_list f) r = Ok o /\
    match o with Some i => rule_type f r i | None => typeless f r end.
  Proof.
    intros r V. unfold syn_rule_ty. destruct (ty_name_ok f T WF CT CO r V) as (o & -> & O). cbn [bind]. eexists. split; [reflexivity|].
    destruct o as [s|].
    - pose proof (type_ref_is s) as TR. destruct (type_ref (type_list f) s) as [i|]; [exists s; split; assumption|].
      intros i (s' & M & N). rewrite (makes_type_fun r s' s M O) in N. exact (TR i N).
    - intros i (s & M & _). exact (O s M).
  Qed.
  Lemma syn_rule_ref_v : forall r, In r rules -> exists i, syn_rule_ref f r = Ok i /\ rule_number f r i.
  Proof.
    intros r I. unfold syn_rule_ref. rewrite (syn_rules_v f T WF). cbn [bind]. destruct (position_in r rules I) as (i & -> & N). exists i. split; [reflexivity|exact N].
  Qed.
  Lemma token_type_v : forall t, In t (tokens f) -> exists i, lex_rule_ty f (type_list f) t = Ok i /\ token_type f t i.
  Proof.
    intros t I. pose proof (tokens_in f T WF t I) as A. destruct (named_of f T WF CT CO LEX_RULE t ltac:(cbn [In]; tauto) A) as (s & N & E).
    unfold lex_rule_ty, node_type. rewrite E. cbn [bind]. pose proof (type_ref_is s) as TR. destruct (type_ref (type_list f) s) as [i|].
    - exists i. split; [reflexivity|]. exists s. split; assumption.
    - exfalso. assert (IT : In (s, has_attr f t s_skip) (type_list f)).
      { unfold type_list. apply in_or_app. left. apply in_flat_map. exists t. split; [exact I|]. rewrite N. left. reflexivity. }
      pose proof (position_first _ (fun x : bytes * bool => bytes_eqb (fst x) s) (type_list f)) as P.
      destruct (position _ (type_list f)) as [i|].
      + destruct P as (pre & (s', b) & post & E' & B & N' & _). cbn [fst] in B. apply bytes_eqb_spec in B. subst s'.
        apply (TR (S (length pre))). exists pre, b, post. split; [exact E'|]. split; [|reflexivity]. intros J. apply in_map_iff in J.
        destruct J as ((s', b') & E2 & J). cbn [fst] in E2. subst s'. specialize (N' _ J). cbn [fst] in N'. rewrite (proj2 (bytes_eqb_spec s s) eq_refl) in N'. discriminate N'.
      + specialize (P _ IT). cbn [fst] in P. rewrite (proj2 (bytes_eqb_spec s s) eq_refl) in P. discriminate P.
  Qed.
  Lemma param_ref_v : forall r p, In r rules -> In p (params f r) -> exists i, param_ref f p = Ok i /\ param_number f p i.
  Proof.
    intros r p I J. unfold param_ref. rewrite (syn_rules_v f T WF). cbn [bind].
    rewrite (flat_map_pure _ _ _ (params f)) by (intros x IX; exact (params_v f T WF x (proj1 (rules_in f T WF x IX)))). cbn [bind].
    destruct (position_in p (flat_map (params f) rules)) as (i & -> & N); [apply in_flat_map; exists r; split; assumption|].
    exists i. split; [reflexivity|exact N].
  Qed.

  (** *** Token texts *)
  Lemma lex_re_v : forall t, valid f t -> lex_re f t = Ok (option_map (str f) (kid f STRING t)).
  Proof.
    intros t V. unfold lex_re. rewrite (child_of_type_v f T WF STRING t V). cbn [bind]. destruct (kid f STRING t) as [m|] eqn:K; [|reflexivity].
    rewrite (text_v f T WF CT m (kid_valid f T WF _ _ _ K)). reflexivity.
  Qed.
  Lemma token_text_v : forall t, valid f t -> decided (exists b, plain_text f t b) (token_text f t) (plain_text f t).
  Proof.
    intros t V. unfold token_text. rewrite (lex_re_v t V). cbn [bind]. destruct (kid f STRING t) as [m|] eqn:K; cbn [option_map].
    2:{ right. split; [intros (b & m & E & _); congruence|left; reflexivity]. }
    fold (raw (str f m)). destruct (raw (str f m)) eqn:RW.
    - right. split; [|left; reflexivity]. intros (b & m' & E & F & _). rewrite K in E. injection E as <-. congruence.
    - destruct (lit_body_cases (str f m)) as [(b & -> & B)|(-> & B)]; cbn [bind].
      + left. assert (PT : plain_text f t b) by (exists m; auto). split; [exists b; exact PT|]. exists b. split; [reflexivity|exact PT].
      + right. split; [|right; reflexivity]. intros (b & m' & E & _ & F). rewrite K in E. injection E as <-. exact (B b F).
  Qed.
  Lemma plain_fun : forall t b b', plain_text f t b -> plain_text f t b' -> b = b'.
  Proof. intros t b b' (m & K & _ & L) (m' & K' & _ & L'). rewrite K in K'. injection K' as <-. exact (literal_fun _ _ _ L L'). Qed.

  (** *** Commit *)
  Lemma is_commit_v : forall a, valid f a -> is_commit f a = Ok (is_commit_part f a).
  Proof. intros a V. unfold is_commit. rewrite (text_v f T WF CT a V). reflexivity. Qed.
  Lemma commit_v : forall l, (forall a, In a l -> valid f a) -> exists c, position_res (is_commit f) l = Ok c /\ commit_place f l c.
  Proof.
    intros l VL. assert (P : position_res (is_commit f) l = Ok (position (is_commit_part f) l)).
    { induction l as [|a l IH]; [reflexivity|]. cbn [position_res position]. rewrite (is_commit_v a (VL a (or_introl eq_refl))). cbn [bind].
      destruct (is_commit_part f a); [reflexivity|]. rewrite (IH (fun x I => VL x (or_intror I))). reflexivity. }
    rewrite P. eexists. split; [reflexivity|]. pose proof (position_first _ (is_commit_part f) l) as PF. destruct (position _ l) as [i|].
    - destruct PF as (pre & a & post & -> & A & N & ->). exact (cp_some f pre a post N A).
    - exact (cp_none f l PF).
  Qed.

  (** *** What can be compiled *)
  Ltac clash := match goal with A : ty f ?e = _, B : ty f ?e = _ |- _ => exfalso; rewrite A in B; discriminate B end.
  Ltac same_ref := match goal with A : resolves f ?e ?x, B : resolves f ?e ?y |- _ => pose proof (resolves_fun f e x y A B); clear B end.

  Lemma cb_block : forall e, ty f e = BLOCK_EXPR -> (compilable f e <-> forall a, In a (exprs f e) -> compilable f a).
  Proof.
    intros e B. split; [|exact (k_block f e B)]. intros H. inversion H; subst; try clash; try assumption.
    match goal with D : _ \/ _ |- _ => destruct D; clash end.
  Qed.
  Lemma cb_seq : forall e, ty f e = SEQ_EXPR -> (compilable f e <-> forall a, In a (real_parts f e) -> compilable f a).
  Proof.
    intros e B. split.
    - intros H a I. apply filter_In in I. destruct I as (I & N). apply negb_true_iff in N. inversion H; subst; try clash.
      + match goal with D : forall a, In a (exprs f e) -> is_commit_part f a = false -> _ |- _ => exact (D a I N) end.
      + match goal with D : _ \/ _ |- _ => destruct D; clash end.
    - intros H. apply (k_seq f e B). intros a I N. apply H. apply filter_In. split; [exact I|]. rewrite N. reflexivity.
  Qed.
  Lemma cb_ref : forall e o, ty f e = REF_EXPR -> resolves f e o -> (compilable f e <->
    match o with
    | None => False
    | Some (RToken t) => has_attr f t s_contextual = true -> exists b, plain_text f t b
    | Some _ => True end).
  Proof.
    intros e o B RS. split.
    - intros H. inversion H; subst; try clash; try (same_ref; subst o; trivial).
      match goal with D : _ \/ _ |- _ => destruct D; clash end.
    - destruct o as [[t|r|p]|]; [exact (k_token f e t B RS)|intros _; exact (k_rule f e r B RS)|intros _; exact (k_param f e p B RS)|intros []].
  Qed.
  Lemma cb_opt : forall e, ty f e = OPT_EXPR \/ ty f e = REP_EXPR -> (compilable f e <-> exists a l, exprs f e = a :: l /\ compilable f a).
  Proof.
    intros e B. split.
    - intros H. inversion H; subst; try (destruct B; clash). exists a, l. split; assumption.
    - intros (a & l & E & C). exact (k_opt f e a l B E C).
  Qed.
  Definition call_fits (k : call_kind) : Prop :=
    match k with
    | CkCommit => False
    | CkEof | CkAny | CkIsIn _ => True
    | CkNot a | CkEnter _ a | CkExit _ a => compilable f a
    | CkLayer a b | CkWithSkip a b | CkInject a b => compilable f a /\ compilable f b
    | CkRuleCall _ args => forall p a, In (p, a) args -> compilable f a
    | CkPrevIs rs => forall r, In r rs -> exists i, rule_type f r i
    end.
  Lemma cb_call : forall e o ds, ty f e = CALL_EXPR -> call_means f e o ds -> (compilable f e <-> match o with None => False | Some k => call_fits k end).
  Proof.
    intros e o ds B CM. assert (U : forall k, call_is f e k -> o = Some k).
    { intros k (ds' & CM'). exact (proj1 (call_means_fun f e _ _ _ _ CM CM')). }
    split.
    - intros H. inversion H; subst; try clash; try (match goal with C : call_is f e _ |- _ => rewrite (U _ C) end).
      + match goal with D : _ \/ _ |- _ => destruct D; clash end.
      + match goal with D : _ \/ _ |- _ => destruct D as [->|[->|(c & ->)]]; exact I end.
      + match goal with D : _ \/ _ |- _ => destruct D as [->|(c & [->| ->])]; assumption end.
      + match goal with D : _ \/ _ |- _ => destruct D as [->|[->| ->]]; split; assumption end.
      + assumption.
      + assumption.
    - destruct o as [k|]; [|intros []]. assert (C : call_is f e k) by (exists ds; exact CM). destruct k; cbn [call_fits]; intros H.
      + exact (k_call0 f e _ B C (or_introl eq_refl)).
      + exact (k_call0 f e _ B C (or_intror (or_introl eq_refl))).
      + destruct H.
      + exact (k_call1 f e _ _ B C (or_introl eq_refl) H).
      + exact (k_call2 f e _ _ _ B C (or_introl eq_refl) (proj1 H) (proj2 H)).
      + exact (k_call2 f e _ _ _ B C (or_intror (or_introl eq_refl)) (proj1 H) (proj2 H)).
      + exact (k_call1 f e _ _ B C (or_intror (ex_intro _ _ (or_introl eq_refl))) H).
      + exact (k_call1 f e _ _ B C (or_intror (ex_intro _ _ (or_intror eq_refl))) H).
      + exact (k_call0 f e _ B C (or_intror (or_intror (ex_intro _ _ eq_refl)))).
      + exact (k_call f e _ _ B C H).
      + exact (k_prev_is f e _ B C H).
      + exact (k_call2 f e _ _ _ B C (or_intror (or_intror eq_refl)) (proj1 H) (proj2 H)).
  Qed.

  (** *** Where expressions stand *)
  Definition placed (e : nat) : Prop := exists r, In r rules /\ enclosing_rule f e r.
  Lemma expr_not_rule : forall e, is_expr (ty f e) = true -> ty f e <> SYN_RULE.
  Proof. intros e H E. rewrite E in H. discriminate H. Qed.
  Lemma placed_child : forall e a, placed e -> In a (exprs f e) -> placed a.
  Proof.
    intros e a (r & I & ER) J. exists r. split; [exact I|]. destruct (exprs_in f T WF e a J) as (_ & P & X).
    exact (er_up f a e r (expr_not_rule a X) P ER).
  Qed.
  Lemma placed_body : forall r b, In r rules -> In b (exprs f r) -> placed b.
  Proof.
    intros r b I J. exists r. split; [exact I|]. destruct (exprs_in f T WF r b J) as (_ & P & X).
    exact (er_up f b r r (expr_not_rule b X) P (er_here f r (proj2 (rules_in f T WF r I)))).
  Qed.
  Lemma child_lower : forall fuel e a, length nodes - e < S fuel -> In a (exprs f e) -> length nodes - a < fuel.
  Proof.
    intros fuel e a L J. destruct (exprs_in f T WF e a J) as (V & P & _). destruct (par_in f T WF a e V P) as (_ & Q & _). unfold valid in V. lia.
  Qed.
  Lemma placed_param : forall e p, placed e -> resolves f e (Some (RParam p)) -> exists r, In r rules /\ In p (params f r).
  Proof.
    intros e p (r & I & ER) (r' & s & ER' & _ & M). rewrite (enclosing_fun f e r' r ER' ER) in M.
    exists r. split; [exact I|]. inversion M as [p' H E| | |]. subst p'. exact (first_such_in _ _ _ _ H).
  Qed.
  Lemma resolves_rule : forall e r, resolves f e (Some (RRule r)) -> In r rules.
  Proof. intros e r (r' & s & _ & _ & M). inversion M as [|x N H E| |]. subst x. exact (first_such_in _ _ _ _ H). Qed.
  Lemma resolves_token : forall e t, resolves f e (Some (RToken t)) -> In t (tokens f).
  Proof. intros e r (r' & s & _ & _ & M). inversion M as [| |x N N' H E|]. subst x. exact (last_such_in _ _ _ _ H). Qed.

  Lemma in_hd : forall (x a : nat) l, x = a -> In x (a :: l).
  Proof. intros x a l ->. left. reflexivity. Qed.
  Lemma call_operands : forall e k ds, call_means f e (Some k) ds ->
    match k with
    | CkNot a | CkEnter _ a | CkExit _ a => In a (exprs f e)
    | CkLayer a b | CkWithSkip a b | CkInject a b => In a (exprs f e) /\ In b (exprs f e)
    | CkRuleCall r args => In r rules /\ forall p a, In (p, a) args -> In p (params f r) /\ In a (exprs f e)
    | CkPrevIs rs => forall r, In r rs -> In r rules
    | _ => True
    end.
  Proof.
    intros e k ds H. inversion H as [N|N|N|a l N E|a b l N E|a b l N E|a b l N E|c i N N'|c i a b l N E|c i a b l N E| | |rs n N P|r C|]; subst; trivial.
    - rewrite E. left. reflexivity.
    - rewrite E. split; [left; reflexivity|right; left; reflexivity].
    - rewrite E. split; [left; reflexivity|right; left; reflexivity].
    - rewrite E. split; [left; reflexivity|right; left; reflexivity].
    - rewrite E. right. left. reflexivity.
    - rewrite E. right. left. reflexivity.
    - clear H N. remember (exprs f e) as l eqn:EL. clear EL. induction P as [|a r s l rs k A B C P IH|a l rs k A P IH].
      + intros r [].
      + intros r' [<-|I]; [exact (resolves_rule a r B)|exact (IH r' I)].
      + exact IH.
    - split.
      + destruct C as (s & _ & _ & F & _). exact (first_such_in _ _ _ _ F).
      + intros p a I. split; [exact (in_combine_l _ _ _ _ I)|exact (in_combine_r _ _ _ _ I)].
  Qed.

  (** *** New entries *)
  Definition fresh_ok (tab tab' : list expr) : Prop :=
    forall k x, length tab <= k -> nth_error tab' k = Some x -> refers_below f k x.
  Definition ext (tab tab' : list expr) : Prop := (exists mid, tab' = tab ++ mid) /\ fresh_ok tab tab'.

  Lemma ext_refl : forall tab, ext tab tab.
  Proof.
    intros tab. split; [exists []; symmetry; apply app_nil_r|]. intros k x L E. exfalso.
    assert (k < length tab) by (apply nth_error_Some; congruence). lia.
  Qed.
  Lemma ext_length : forall a b, ext a b -> length a <= length b.
  Proof. intros a b ((m & ->) & _). rewrite app_length. lia. Qed.
  Lemma ext_trans : forall a b c, ext a b -> ext b c -> ext a c.
  Proof.
    intros a b c ((m & ->) & F1) ((m' & ->) & F2). split; [exists (m ++ m'); symmetry; apply app_assoc|].
    intros k x L E. destruct (le_lt_dec (length (a ++ m)) k) as [L'|L']; [exact (F2 k x L' E)|].
    apply (F1 k x L). rewrite nth_error_app1 in E by exact L'. exact E.
  Qed.
  Lemma ext_grows : forall a b, ext a b -> grows f a b.
  Proof. intros a b ((m & ->) & _). apply grows_app. Qed.
  Lemma ext_push : forall tab x, refers_below f (length tab) x -> ext tab (tab ++ [x]).
  Proof.
    intros tab x H. split; [exists [x]; reflexivity|]. intros k y L E. rewrite nth_error_app2 in E by exact L.
    destruct (k - length tab) as [|m] eqn:D; cbn [nth_error] in E.
    - injection E as <-. replace k with (length tab) by lia. exact H.
    - rewrite (proj2 (nth_error_None [] m) (Nat.le_0_l m)) in E. discriminate E.
  Qed.

  Definition made (tab : list expr) (e : nat) (p : nat * list expr) : Prop :=
    (snd p = tab /\ exists r, ty f e = REF_EXPR /\ resolves f e (Some (RRule r)) /\ rule_number f r (fst p)) \/
    (exists tab1 x, ext tab tab1 /\ snd p = tab1 ++ [x] /\ fst p = length tab1 /\ written f tab1 e x /\ refers_below f (length tab1) x).

  Lemma made_ext : forall tab e p, R <= length tab -> made tab e p -> ext tab (snd p) /\ compiled f (snd p) e (fst p).
  Proof.
    intros tab e (i, tab') L [(-> & r & A & B & C)|(tab1 & x & X & E & E' & W & RB)]; cbn [fst snd] in *.
    - split; [apply ext_refl|]. exact (c_rule f tab e r i A B C).
    - subst tab' i. pose proof (ext_length _ _ X) as LX. split; [exact (ext_trans _ _ _ X (ext_push _ _ RB))|].
      apply (c_entry f (tab1 ++ [x]) e x); [lia| |exact (written_mono f _ _ (grows_app f _ _) e x W)].
      rewrite nth_error_app2 by lia. rewrite Nat.sub_diag. reflexivity.
  Qed.

  Lemma type_bound : forall s i, type_number f s i -> 1 <= i <= length (type_list f).
  Proof. intros s i (p & b & q & E & _ & ->). rewrite E, app_length. cbn [length]. lia. Qed.
  Lemma param_bound : forall p i, param_number f p i -> i < length (flat_map (params f) rules).
  Proof. intros p i E. apply nth_error_Some. unfold param_number in E. congruence. Qed.
  Lemma commit_bound : forall e c, commit_place f (exprs f e) (Some c) -> c <= length (real_parts f e).
  Proof.
    intros e c H. unfold real_parts. inversion H as [|pre a post N A E E']. subst c. rewrite filter_app, app_length.
    assert (EP : filter (fun a => negb (is_commit_part f a)) pre = pre).
    { clear - N. induction pre as [|y pre IH]; [reflexivity|]. cbn [filter]. rewrite (N y (or_introl eq_refl)). cbn [negb]. f_equal. apply IH. intros x I. exact (N x (or_intror I)). }
    rewrite EP. lia.
  Qed.

  Lemma one_below : forall tab a i, R <= length tab -> compiled f tab a i -> forall j, In j [i] -> j < length tab.
  Proof. intros tab a i L C j [<-|[]]. exact (compiled_bound f tab L a i C). Qed.
  Lemma two_below : forall tab a b i i', R <= length tab -> compiled f tab a i -> compiled f tab b i' -> forall j, In j [i; i'] -> j < length tab.
  Proof. intros tab a b i i' L C C' j [<-|[<-|[]]]; [exact (compiled_bound f tab L a i C)|exact (compiled_bound f tab L b i' C')]. Qed.

  Lemma written_below : forall tab e x, R <= length tab -> written f tab e x -> refers_below f (length tab) x.
  Proof.
    intros tab e x L W.
    assert (FB : forall l l', Forall2 (compiled f tab) l l' -> forall j, In j l' -> j < length tab).
    { intros l l' F. pose proof (compileds_bound f tab L l l' F) as FA. rewrite Forall_forall in FA. exact FA. }
    assert (NT : forall t, In t [] -> 1 <= t <= length (type_list f)) by (intros t []).
    assert (NP : forall t, In t [] -> t < length (flat_map (params f) rules)) by (intros t []).
    assert (NM : forall t : nat, In t [] -> t < length tab) by (intros t []).
    assert (RN : forall r i, rule_number f r i -> i < length tab).
    { intros r i E. apply Nat.lt_le_trans with (m := R); [|exact L]. apply nth_error_Some. unfold rule_number in E. congruence. }
    unfold refers_below.
    destruct W as [e l A B|e l c A B C|e t i A B C D|e t i b A B C D E|e p i A B C|e a l i A B C|e a l i A B C|e A B|e A B|e a i A B C
        |e a b i j A B C D|e a b i j A B C D|e a b i j A B C D|e c a i A B C|e c a i A B C|e c A B|e r i args l A B C D E|e rs l A B C];
      cbn [mentions types_in params_in].
    - split; [exact (FB _ _ B)|]. split; [exact NT|]. split; [exact NP|exact I].
    - split; [exact (FB _ _ B)|]. split; [exact NT|]. split; [exact NP|]. destruct c as [c|]; [|exact I].
      pose proof (commit_bound e c C) as CB. rewrite (Forall2_length _ _ _ _ _ B) in CB. exact CB.
    - split; [exact NM|]. split; [|split; [exact NP|exact I]]. intros t' [<-|[]]. destruct D as (s & _ & TN). exact (type_bound s i TN).
    - split; [exact NM|]. split; [|split; [exact NP|exact I]]. intros t' [<-|[]]. destruct D as (s & _ & TN). exact (type_bound s i TN).
    - split; [exact NM|]. split; [exact NT|]. split; [|exact I]. intros t [<-|[]]. exact (param_bound p i C).
    - split; [exact (one_below tab a i L C)|]. split; [exact NT|]. split; [exact NP|exact I].
    - split; [exact (one_below tab a i L C)|]. split; [exact NT|]. split; [exact NP|exact I].
    - split; [exact NM|]. split; [exact NT|]. split; [exact NP|exact I].
    - split; [exact NM|]. split; [exact NT|]. split; [exact NP|exact I].
    - split; [exact (one_below tab a i L C)|]. split; [exact NT|]. split; [exact NP|exact I].
    - split; [exact (two_below tab a b i j L C D)|]. split; [exact NT|]. split; [exact NP|exact I].
    - split; [exact (two_below tab a b i j L C D)|]. split; [exact NT|]. split; [exact NP|exact I].
    - split; [exact (two_below tab a b i j L C D)|]. split; [exact NT|]. split; [exact NP|exact I].
    - split; [exact (one_below tab a i L C)|]. split; [exact NT|]. split; [exact NP|exact I].
    - split; [exact (one_below tab a i L C)|]. split; [exact NT|]. split; [exact NP|exact I].
    - split; [exact NM|]. split; [exact NT|]. split; [exact NP|exact I].
    - split; [|split; [exact NT|split; [|exact I]]].
      + intros j [<-|J]; [exact (RN r i C)|exact (FB _ _ E j J)].
      + intros j J. apply in_map_iff in J. destruct J as (y & <- & J). destruct (forall2_in_r _ _ _ _ _ D y J) as (z & _ & PN). exact (param_bound _ _ PN).
    - split; [exact NM|]. split; [|split; [exact NP|exact I]]. intros t J. destruct (forall2_in_r _ _ _ _ _ C t J) as (z & _ & s & _ & TN). exact (type_bound s t TN).
  Qed.

  Lemma push_made : forall tab tab1 e x, R <= length tab -> ext tab tab1 -> written f tab1 e x -> made tab e (push x tab1).
  Proof.
    intros tab tab1 e x L X W. right. exists tab1, x. pose proof (ext_length _ _ X) as LX. split; [exact X|].
    split; [reflexivity|]. split; [reflexivity|]. split; [exact W|]. apply (written_below tab1 e x); [lia|exact W].
  Qed.

  Lemma try_map_ok : forall A B (C : A -> Prop) (D : list expr -> A -> B -> Prop) (g : A -> list expr -> outcome (B * list expr)) l,
    (forall t t' a b, ext t t' -> D t a b -> D t' a b) ->
    (forall a tab, In a l -> R <= length tab -> decided (C a) (g a tab) (fun p => ext tab (snd p) /\ D (snd p) a (fst p))) ->
    forall tab, R <= length tab ->
    decided (forall a, In a l -> C a) (try_map g l tab) (fun p => ext tab (snd p) /\ Forall2 (D (snd p)) l (fst p)).
  Proof.
    intros A B C D g l M. induction l as [|a l IH]; intros H tab L; cbn [try_map].
    - apply decided_yes; [intros a []|]. cbn [fst snd]. split; [apply ext_refl|constructor].
    - apply (decided_iff _ (C a /\ (forall x, In x l -> C x))).
      { split; [intros (X & Y) x [<-|J]; [exact X|exact (Y x J)]|intros X; split; [exact (X a (or_introl eq_refl))|intros x J; exact (X x (or_intror J))]]. }
      eapply decided_try; [exact (H a tab (or_introl eq_refl) L)|]. intros (b, tab1) (X1 & D1). cbn [fst snd] in *. pose proof (ext_length _ _ X1) as L1.
      destruct (IH (fun x t J => H x t (or_intror J)) tab1 ltac:(lia)) as [(Y & (bs, tab2) & E & X2 & F)|(Y & E)].
      + rewrite E, try_some. apply decided_yes; [exact Y|]. cbn [fst snd] in *. split; [exact (ext_trans _ _ _ X1 X2)|].
        constructor; [exact (M tab1 tab2 a b X2 D1)|exact F].
      + right. split; [exact Y|]. exact (try_rejects _ _ _ _ E).
  Qed.

  (** *** Expressions *)
  Notation types := (type_list f).
  Notation gen := (gen_expr f ask types).

  Definition gens (fuel : nat) : Prop := forall e tab, valid f e -> is_expr (ty f e) = true -> placed e -> length nodes - e < fuel -> R <= length tab ->
    decided (compilable f e) (gen fuel e tab) (made tab e).

  Lemma gens_ext : forall fuel, gens fuel -> forall e tab, valid f e -> is_expr (ty f e) = true -> placed e -> length nodes - e < fuel -> R <= length tab ->
    decided (compilable f e) (gen fuel e tab) (fun p => ext tab (snd p) /\ compiled f (snd p) e (fst p)).
  Proof. intros fuel G e tab V X P L LT. eapply decided_weak; [|exact (G e tab V X P L LT)]. intros p. exact (made_ext tab e p LT). Qed.

  Lemma gens_kids : forall fuel, gens fuel -> forall e l, placed e -> length nodes - e < S fuel -> (forall a, In a l -> In a (exprs f e)) ->
    forall tab, R <= length tab ->
    decided (forall a, In a l -> compilable f a) (try_map (gen fuel) l tab) (fun p => ext tab (snd p) /\ Forall2 (compiled f (snd p)) l (fst p)).
  Proof.
    intros fuel G e l P L IL tab LT. apply (try_map_ok _ _ (compilable f) (fun t a b => compiled f t a b)); [|intros a t J LT'|exact LT].
    - intros t t' a b X. exact (compiled_mono f t t' (ext_grows _ _ X) a b).
    - pose proof (IL a J) as JA. destruct (exprs_in f T WF e a JA) as (V & PA & XA).
      exact (gens_ext fuel G a t V XA (placed_child e a P JA) (child_lower fuel e a L JA) LT').
  Qed.

  Lemma gen_one : forall fuel, gens fuel -> forall e a (c : nat -> expr) tab, placed e -> length nodes - e < S fuel -> In a (exprs f e) -> R <= length tab ->
    (forall tab' i, compiled f tab' a i -> written f tab' e (c i)) ->
    decided (compilable f a) ('(x, t) <! gen fuel a tab ;; done (push (c x) t)) (made tab e).
  Proof.
    intros fuel G e a c tab P L J LT W. destruct (exprs_in f T WF e a J) as (V & PA & XA).
    apply (decided_iff _ (compilable f a /\ True)); [tauto|].
    eapply decided_try; [exact (gens_ext fuel G a tab V XA (placed_child e a P J) (child_lower fuel e a L J) LT)|].
    intros (i, t) (X & C). cbn [fst snd] in *. apply decided_yes; [exact I|]. exact (push_made tab t e (c i) LT X (W t i C)).
  Qed.
  Lemma gen_two : forall fuel, gens fuel -> forall e a b (c : nat -> nat -> expr) tab, placed e -> length nodes - e < S fuel -> In a (exprs f e) -> In b (exprs f e) ->
    R <= length tab -> (forall tab' i j, compiled f tab' a i -> compiled f tab' b j -> written f tab' e (c i j)) ->
    decided (compilable f a /\ compilable f b) ('(x, t) <! gen fuel a tab ;; '(y, t) <! gen fuel b t ;; done (push (c x y) t)) (made tab e).
  Proof.
    intros fuel G e a b c tab P L J J' LT W. destruct (exprs_in f T WF e a J) as (V & PA & XA). destruct (exprs_in f T WF e b J') as (V' & PA' & XA').
    eapply decided_try; [exact (gens_ext fuel G a tab V XA (placed_child e a P J) (child_lower fuel e a L J) LT)|].
    intros (i, t) (X & C). cbn [fst snd] in *. pose proof (ext_length _ _ X) as LX. apply (decided_iff _ (compilable f b /\ True)); [tauto|].
    eapply decided_try; [exact (gens_ext fuel G b t V' XA' (placed_child e b P J') (child_lower fuel e b L J') ltac:(lia))|].
    intros (j, t') (X' & C'). cbn [fst snd] in *. apply decided_yes; [exact I|].
    exact (push_made tab t' e (c i j) LT (ext_trans _ _ _ X X') (W t' i j (compiled_mono f t t' (ext_grows _ _ X') _ _ C) C')).
  Qed.

  Lemma ask_ref_v : forall n, is_a f REF_EXPR n -> exists o, CodegenModel.ask_ref ask n = Ok o /\ resolves f n o.
  Proof. intros n A. destruct (RefProofs.ask_ref f T WF CT CO ask HON n A) as (o & E & RS). exists o. unfold CodegenModel.ask_ref. rewrite E. split; [reflexivity|exact RS]. Qed.
  Lemma ask_call_v : forall n, is_a f CALL_EXPR n -> exists o ds, CodegenModel.ask_call ask n = Ok o /\ call_means f n o ds.
  Proof. intros n A. destruct (RefProofs.ask_call f T WF CT CO ask HON n A) as (o & ds & E & CM). exists o, ds. unfold CodegenModel.ask_call. rewrite E. split; [reflexivity|exact CM]. Qed.
  Lemma ask_pratt_v : forall n, is_a f SYN_RULE n -> exists o ds, ask_pratt ask n = Ok o /\ pratt_means f n o ds.
  Proof.
    intros n A. destruct (HON (QPratt n) A) as (v & E & AN). destruct (answered_says f T WF CT CO (QPratt n) v A AN) as (ds & o & -> & PM).
    exists o, ds. unfold ask_pratt. rewrite E. split; [reflexivity|exact PM].
  Qed.

  Lemma rejects_none : forall A, @rejects A (Ok None).
  Proof. left. reflexivity. Qed.

  Lemma gen_ref : forall fuel e tab, valid f e -> ty f e = REF_EXPR -> placed e -> R <= length tab ->
    decided (compilable f e) (gen (S fuel) e tab) (made tab e).
  Proof.
    intros fuel e tab V TY P LT. cbn [gen_expr]. rewrite (ty_v f e V). cbn [bind]. rewrite TY. cbn [Nat.eqb REF_EXPR BLOCK_EXPR SEQ_EXPR].
    destruct (ask_ref_v e (conj V TY)) as (o & E & RS). rewrite E. cbn [bind]. apply (decided_iff _ _ _ _ _ (iff_sym (cb_ref e o TY RS))).
    destruct o as [k|]; [|right; split; [tauto|left; reflexivity]]. unfold ok_or. rewrite try_some. destruct k as [t|r|p].
    - destruct (token_type_v t (resolves_token e t RS)) as (i & EI & TN). rewrite EI. cbn [bind].
      pose proof (proj1 (tokens_in f T WF t (resolves_token e t RS))) as VT. rewrite (has_attribute_v t s_contextual VT). cbn [bind].
      destruct (has_attr f t s_contextual) eqn:HA.
      + destruct (token_text_v t VT) as [(PB & b & EB & PT)|(PB & RJ)].
        * rewrite EB. cbn [bind]; unfold ok_or. rewrite try_some. apply decided_yes; [intros _; exact PB|].
          exact (push_made tab tab e _ LT (ext_refl tab) (w_contextual f tab e t i b TY RS HA TN PT)).
        * right. split; [intros H; exact (PB (H eq_refl))|]. destruct RJ as [->| ->]; [left|right]; reflexivity.
      + apply decided_yes; [discriminate|]. exact (push_made tab tab e _ LT (ext_refl tab) (w_token f tab e t i TY RS HA TN)).
    - destruct (syn_rule_ref_v r (resolves_rule e r RS)) as (i & EI & RN). rewrite EI. cbn [bind]. apply decided_yes; [exact I|].
      left. cbn [fst snd]. split; [reflexivity|]. exists r. auto.
    - destruct (placed_param e p P RS) as (r & IR & IP). destruct (param_ref_v r p IR IP) as (i & EI & PN). rewrite EI. cbn [bind]. apply decided_yes; [exact I|].
      exact (push_made tab tab e _ LT (ext_refl tab) (w_param f tab e p i TY RS PN)).
  Qed.

  Lemma prev_types : forall rs, (forall r, In r rs -> valid f r) ->
    (exists l, flat_map_res (fun r => o <- syn_rule_ty f types r ;; t <- unwrap o ;; Ok [t]) rs = Ok l /\ Forall2 (rule_type f) rs l) \/
    (flat_map_res (fun r => o <- syn_rule_ty f types r ;; t <- unwrap o ;; Ok [t]) rs = Panic /\ ~ forall r, In r rs -> exists i, rule_type f r i).
  Proof.
    intros rs V. induction rs as [|r rs IH]; [left; exists []; split; [reflexivity|constructor]|]. cbn [flat_map_res].
    destruct (syn_rule_ty_v r (V r (or_introl eq_refl))) as (o & -> & O). cbn [bind]. destruct o as [t|]; cbn [unwrap bind].
    - destruct (IH (fun x J => V x (or_intror J))) as [(l & -> & F)|(-> & N)]; cbn [bind app].
      + left. exists (t :: l). split; [reflexivity|constructor; assumption].
      + right. split; [reflexivity|]. intros H. apply N. intros x J. exact (H x (or_intror J)).
    - right. split; [reflexivity|]. intros H. destruct (H r (or_introl eq_refl)) as (i & RT). exact (O i RT).
  Qed.

  Lemma gen_call_args : forall fuel, gens fuel -> forall e r args, placed e -> length nodes - e < S fuel -> In r rules ->
    (forall p a, In (p, a) args -> In p (params f r) /\ In a (exprs f e)) -> forall tab, R <= length tab ->
    decided (forall a, In a args -> compilable f (snd a))
      (try_map (fun x tab => p <- param_ref f (fst x) ;; '(y, tab) <! gen fuel (snd x) tab ;; done ((p, y), tab)) args tab)
      (fun p => ext tab (snd p) /\ Forall2 (fun a x => param_number f (fst a) (fst x) /\ compiled f (snd p) (snd a) (snd x)) args (fst p)).
  Proof.
    intros fuel G e r args P L IR IA tab LT.
    apply (try_map_ok _ _ (fun x : nat * nat => compilable f (snd x))
      (fun t (x : nat * nat) (y : nat * nat) => param_number f (fst x) (fst y) /\ compiled f t (snd x) (snd y))); [| |exact LT].
    - intros t t' a b X (A & B). split; [exact A|]. exact (compiled_mono f t t' (ext_grows _ _ X) _ _ B).
    - intros (p, a) t J LT'. cbn [fst snd]. destruct (IA p a J) as (IP & JA). destruct (param_ref_v r p IR IP) as (i & -> & PN). cbn [bind].
      destruct (exprs_in f T WF e a JA) as (V & PA & XA). apply (decided_iff _ (compilable f a /\ True)); [tauto|].
      eapply decided_try; [exact (gens_ext fuel G a t V XA (placed_child e a P JA) (child_lower fuel e a L JA) LT')|].
      intros (y, t') (X & C). cbn [fst snd] in *. apply decided_yes; [exact I|]. cbn [fst snd]. auto.
  Qed.

  Lemma split_args : forall tab (args l : list (nat * nat)),
    Forall2 (fun a x => param_number f (fst a) (fst x) /\ compiled f tab (snd a) (snd x)) args l ->
    Forall2 (fun a x => param_number f (fst a) (fst x)) args l /\ Forall2 (compiled f tab) (map snd args) (map snd l).
  Proof.
    intros tab args l F. induction F as [|a b la lb (A & B) F (IH1 & IH2)]; [split; constructor|]. cbn [map]. split; constructor; assumption.
  Qed.

  Lemma gen_call : forall fuel, gens fuel -> forall e tab, valid f e -> ty f e = CALL_EXPR -> placed e -> length nodes - e < S fuel -> R <= length tab ->
    decided (compilable f e) (gen (S fuel) e tab) (made tab e).
  Proof.
    intros fuel G e tab V TY P L LT. cbn [gen_expr]. rewrite (ty_v f e V). cbn [bind]. rewrite TY. cbn [Nat.eqb REF_EXPR BLOCK_EXPR SEQ_EXPR CALL_EXPR].
    destruct (ask_call_v e (conj V TY)) as (o & ds & E & CM). rewrite E. cbn [bind]. apply (decided_iff _ _ _ _ _ (iff_sym (cb_call e o ds TY CM))).
    destruct o as [k|]; [|right; split; [tauto|left; reflexivity]]. unfold ok_or. rewrite try_some. pose proof (call_operands e k ds CM) as OP.
    assert (CI : call_is f e k) by (exists ds; exact CM). destruct k; cbn [call_fits].
    - apply decided_yes; [exact I|]. exact (push_made tab tab e _ LT (ext_refl tab) (w_eof f tab e TY CI)).
    - apply decided_yes; [exact I|]. exact (push_made tab tab e _ LT (ext_refl tab) (w_any f tab e TY CI)).
    - right. split; [tauto|right; reflexivity].
    - apply (gen_one fuel G e _ ENot tab P L OP LT). intros t i C. exact (w_not f t e _ i TY CI C).
    - apply (gen_two fuel G e _ _ ELayer tab P L (proj1 OP) (proj2 OP) LT). intros t i j C C'. exact (w_layer f t e _ _ i j TY CI C C').
    - apply (gen_two fuel G e _ _ EWithSkip tab P L (proj1 OP) (proj2 OP) LT). intros t i j C C'. exact (w_with_skip f t e _ _ i j TY CI C C').
    - apply (gen_one fuel G e _ (EEnter _) tab P L OP LT). intros t i C. exact (w_enter f t e _ _ i TY CI C).
    - apply (gen_one fuel G e _ (EExit _) tab P L OP LT). intros t i C. exact (w_exit f t e _ _ i TY CI C).
    - apply decided_yes; [exact I|]. exact (push_made tab tab e _ LT (ext_refl tab) (w_is_in f tab e _ TY CI)).
    - destruct OP as (IR & IA). match goal with |- context [syn_rule_ref f ?r] => destruct (syn_rule_ref_v r IR) as (i & -> & RN) end. cbn [bind].
      apply (decided_iff _ ((forall a, In a args -> compilable f (snd a)) /\ True)).
      { split; [intros (H & _) p a J; exact (H (p, a) J)|intros H; split; [intros (p, a) J; exact (H p a J)|exact I]]. }
      eapply decided_try; [exact (gen_call_args fuel G e _ args P L IR IA tab LT)|]. intros (l, t) (X & F). cbn [fst snd] in *.
      destruct (split_args t args l F) as (F1 & F2). apply decided_yes; [exact I|]. exact (push_made tab t e _ LT X (w_call f t e _ i args l TY CI RN F1 F2)).
    - match goal with |- context [flat_map_res _ ?l] => destruct (prev_types l (fun r J => proj1 (rules_in f T WF r (OP r J)))) as [(l' & -> & F)|(-> & N)] end; cbn [bind].
      + apply decided_yes.
        * intros r J. destruct (forall2_in _ _ _ _ _ F r J) as (i & _ & RT). exists i. exact RT.
        * exact (push_made tab tab e _ LT (ext_refl tab) (w_prev_is f tab e _ l' TY CI F)).
      + right. split; [exact N|right; reflexivity].
    - apply (gen_two fuel G e _ _ EInject tab P L (proj1 OP) (proj2 OP) LT). intros t i j C C'. exact (w_inject f t e _ _ i j TY CI C C').
  Qed.

  Lemma gen_inner : forall fuel, gens fuel -> forall e (c : nat -> expr) tab, valid f e -> placed e -> length nodes - e < S fuel -> R <= length tab ->
    (forall tab' a l i, exprs f e = a :: l -> compiled f tab' a i -> written f tab' e (c i)) ->
    decided (exists a l, exprs f e = a :: l /\ compilable f a)
      (a <- inner_expr f e ;; '(x, t) <! gen fuel a tab ;; done (push (c x) t)) (made tab e).
  Proof.
    intros fuel G e c tab V P L LT W. unfold inner_expr, ast_child. rewrite (children_expr_v f T WF e V). cbn [bind].
    destruct (exprs f e) as [|a l] eqn:E; cbn [hd_error unwrap bind].
    - right. split; [intros (a & l & X & _); discriminate X|right; reflexivity].
    - apply (decided_iff _ (compilable f a)).
      { split; [intros H; exists a, l; auto|intros (a' & l' & X & H); injection X as <- _; exact H]. }
      apply (gen_one fuel G e a c tab P L ltac:(rewrite E; left; reflexivity) LT). intros t i C. exact (W t a l i eq_refl C).
  Qed.

  Lemma expr_cases : forall e, is_expr (ty f e) = true ->
    ty f e = REF_EXPR \/ ty f e = CALL_EXPR \/ ty f e = BLOCK_EXPR \/ ty f e = OPT_EXPR \/ ty f e = REP_EXPR \/ ty f e = SEQ_EXPR.
  Proof.
    intros e H. unfold is_expr, expr_types in H. cbn [existsb] in H. rewrite !orb_true_iff, !Nat.eqb_eq in H. intuition congruence.
  Qed.

  Lemma gen_all : forall fuel, gens fuel.
  Proof.
    intros fuel. induction fuel as [|fuel G]; intros e tab V X P L LT; [lia|].
    destruct (expr_cases e X) as [TY|[TY|[TY|[TY|[TY|TY]]]]].
    - exact (gen_ref fuel e tab V TY P LT).
    - exact (gen_call fuel G e tab V TY P L LT).
    - cbn [gen_expr]. rewrite (ty_v f e V). cbn [bind]. rewrite TY. cbn [Nat.eqb BLOCK_EXPR]. rewrite (children_expr_v f T WF e V). cbn [bind].
      apply (decided_iff _ ((forall a, In a (exprs f e) -> compilable f a) /\ True)); [rewrite (cb_block e TY); tauto|].
      eapply decided_try; [exact (gens_kids fuel G e (exprs f e) P L (fun a J => J) tab LT)|]. intros (l, t) (XT & F). cbn [fst snd] in *.
      apply decided_yes; [exact I|]. exact (push_made tab t e _ LT XT (w_block f t e l TY F)).
    - cbn [gen_expr]. rewrite (ty_v f e V). cbn [bind]. rewrite TY. cbn [Nat.eqb REF_EXPR BLOCK_EXPR SEQ_EXPR CALL_EXPR OPT_EXPR].
      apply (decided_iff _ _ _ _ _ (iff_sym (cb_opt e (or_introl TY)))). apply (gen_inner fuel G e EOpt tab V P L LT).
      intros t a l i E C. exact (w_opt f t e a l i TY E C).
    - cbn [gen_expr]. rewrite (ty_v f e V). cbn [bind]. rewrite TY. cbn [Nat.eqb REF_EXPR BLOCK_EXPR SEQ_EXPR CALL_EXPR OPT_EXPR REP_EXPR].
      apply (decided_iff _ _ _ _ _ (iff_sym (cb_opt e (or_intror TY)))). apply (gen_inner fuel G e ERep tab V P L LT).
      intros t a l i E C. exact (w_rep f t e a l i TY E C).
    - cbn [gen_expr]. rewrite (ty_v f e V). cbn [bind]. rewrite TY. cbn [Nat.eqb REF_EXPR BLOCK_EXPR SEQ_EXPR]. rewrite (children_expr_v f T WF e V). cbn [bind].
      assert (VE : forall a, In a (exprs f e) -> valid f a) by (intros a J; exact (proj1 (exprs_in f T WF e a J))).
      destruct (commit_v (exprs f e) VE) as (c & -> & CP). cbn [bind].
      rewrite (filter_res_pure _ _ (fun a => negb (is_commit_part f a))) by (intros a J; rewrite (is_commit_v a (VE a J)); reflexivity). cbn [bind].
      fold (real_parts f e). apply (decided_iff _ ((forall a, In a (real_parts f e) -> compilable f a) /\ True)); [rewrite (cb_seq e TY); tauto|].
      eapply decided_try; [exact (gens_kids fuel G e (real_parts f e) P L (fun a J => proj1 (proj1 (filter_In _ _ _) J)) tab LT)|].
      intros (l, t) (XT & F). cbn [fst snd] in *. apply decided_yes; [exact I|]. exact (push_made tab t e _ LT XT (w_seq f t e l c TY F CP)).
  Qed.

  (** *** Operator precedence *)
  Notation fuel := (S (length nodes)).

  Lemma alt_v : forall a, valid f a -> decided (exists r, alternative f a r) (alt_to_rule f ask a) (alternative f a).
  Proof.
    intros a V. unfold alt_to_rule. rewrite (ty_v f a V). cbn [bind]. destruct (ty f a =? SEQ_EXPR) eqn:TY; cbn [negb].
    2:{ right. split; [|left; reflexivity]. intros (r & A & _). apply Nat.eqb_neq in TY. exact (TY A). }
    apply Nat.eqb_eq in TY. rewrite (children_expr_v f T WF a V). cbn [bind]. destruct (exprs f a) as [|p l] eqn:E.
    { right. split; [|left; reflexivity]. intros (r & _ & p & l & X & _). congruence. }
    assert (VP : valid f p) by (apply (exprs_in f T WF a p); rewrite E; left; reflexivity). rewrite (ty_v f p VP). cbn [bind].
    destruct (ty f p =? REF_EXPR) eqn:TP; cbn [negb].
    2:{ right. split; [|left; reflexivity]. intros (r & _ & p' & l' & X & B & _). apply Nat.eqb_neq in TP. congruence. }
    apply Nat.eqb_eq in TP. destruct (ask_ref_v p (conj VP TP)) as (o & -> & RS). cbn [bind].
    assert (U : forall r, alternative f a r -> o = Some (RRule r)).
    { intros r (_ & p' & l' & X & B & C). rewrite E in X. injection X as <- <-. exact (resolves_fun f p _ _ RS C). }
    destruct o as [[t|r|q]|]; try (right; split; [intros (r' & A); specialize (U r' A); discriminate U|left; reflexivity]).
    assert (A : alternative f a r) by (split; [exact TY|]; exists p, l; auto). left. split; [exists r; exact A|]. exists r. split; [reflexivity|exact A].
  Qed.
  Lemma alternative_fun : forall a r r', alternative f a r -> alternative f a r' -> r = r'.
  Proof.
    intros a r r' (_ & p & l & E & _ & RS) (_ & p' & l' & E' & _ & RS'). rewrite E in E'. injection E' as <- <-. pose proof (resolves_fun f p _ _ RS RS') as X. congruence.
  Qed.
  Lemma alternative_rule : forall a r, alternative f a r -> In r rules.
  Proof. intros a r (_ & p & l & _ & _ & RS). exact (resolves_rule p r RS). Qed.
  Lemma variant_op : forall r v op, In r rules -> variant f r v -> operator_of v = Some op -> valid f op /\ is_expr (ty f op) = true /\ placed op.
  Proof.
    intros r v op IR (ds & PM) O.
    assert (BP : forall b parts, body_parts f r b parts -> In op parts -> valid f op /\ is_expr (ty f op) = true /\ placed op).
    { intros b parts (HB & _ & a & EB & _ & EA) J. subst parts. destruct (exprs_in f T WF a op J) as (V & _ & X). split; [exact V|]. split; [exact X|].
      apply (placed_child a op); [|exact J]. apply (placed_child b a); [|rewrite EB; left; reflexivity]. exact (placed_body r b IR (hd_error_in _ _ _ HB)). }
    inversion PM; subst; cbn [operator_of] in O; try discriminate O; injection O as <-; match goal with B : body_parts f r _ _ |- _ => apply (BP _ _ B) end; cbn [In]; auto.
  Qed.

  Definition alt_fits (a : nat) : Prop :=
    exists x t v, alternative f a x /\ rule_type f x t /\ variant f x v /\ forall op, operator_of v = Some op -> compilable f op.

  Lemma gen_pratt_ok : forall alts, (forall a, In a alts -> valid f a) -> forall res tab, R <= length tab ->
    decided (forall a, In a alts -> alt_fits a) (gen_pratt f ask types fuel alts res tab)
      (fun p => ext tab (snd p) /\ exists at_ px ix, operators f (snd p) alts at_ px ix /\
        fst p = mkPratt (pt_atoms res ++ at_) (pt_prefixes res ++ px) (pt_infixes res ++ ix)).
  Proof.
    intros alts. induction alts as [|a alts IH]; intros VA res tab LT; cbn [gen_pratt].
    - apply decided_yes; [intros a []|]. cbn [fst snd]. split; [apply ext_refl|]. exists [], [], []. rewrite !app_nil_r. split; [constructor|]. destruct res; reflexivity.
    - assert (VS : forall x, In x alts -> valid f x) by (intros x J; exact (VA x (or_intror J))).
      apply (decided_iff _ (alt_fits a /\ (forall x, In x alts -> alt_fits x))).
      { split; [intros (X & Y) x [<-|J]; [exact X|exact (Y x J)]|intros X; split; [exact (X a (or_introl eq_refl))|intros x J; exact (X x (or_intror J))]]. }
      destruct (alt_v a (VA a (or_introl eq_refl))) as [(AE & r & -> & AR)|(AN & RJ)].
      2:{ right. split; [|exact (try_rejects _ _ _ _ RJ)]. intros ((x & t & v & A & _) & _). apply AN. exists x. exact A. }
      rewrite try_some. pose proof (alternative_rule a r AR) as IR. pose proof (rules_in f T WF r IR) as AS.
      destruct (syn_rule_ty_v r (proj1 AS)) as (o & -> & O). cbn [bind]. unfold ok_or. destruct o as [t|].
      2:{ right. split; [|left; reflexivity]. intros ((x & t & v & A & RT & _) & _). rewrite (alternative_fun a x r A AR) in RT. exact (O t RT). }
      rewrite try_some. destruct (ask_pratt_v r AS) as (o & ds & -> & PM). cbn [bind]. destruct o as [v|].
      2:{ right. split; [|left; reflexivity]. intros ((x & t' & v & A & _ & (ds' & PM') & _) & _). rewrite (alternative_fun a x r A AR) in PM'.
          destruct (pratt_means_fun f r _ _ _ _ PM PM') as (X & _). discriminate X. }
      rewrite try_some. assert (VR : variant f r v) by (exists ds; exact PM).
      assert (FIT : alt_fits a <-> forall op, operator_of v = Some op -> compilable f op).
      { split.
        - intros (x & t' & v' & A & _ & (ds' & PM') & H). rewrite (alternative_fun a x r A AR) in PM'. destruct (pratt_means_fun f r _ _ _ _ PM PM') as (X & _).
          injection X as <-. exact H.
        - intros H. exists r, t, v. auto. }
      assert (STEP : forall op (K : nat -> list expr -> outcome (pratt_table * list expr)), operator_of v = Some op ->
        (forall i t1, R <= length t1 -> compiled f t1 op i -> decided (forall x, In x alts -> alt_fits x) (K i t1)
          (fun p => ext t1 (snd p) /\ exists at_ px ix, operators f (snd p) (a :: alts) at_ px ix /\
             fst p = mkPratt (pt_atoms res ++ at_) (pt_prefixes res ++ px) (pt_infixes res ++ ix))) ->
        decided (alt_fits a /\ (forall x, In x alts -> alt_fits x)) ('(e, tab) <! gen fuel op tab ;; K e tab)
          (fun p => ext tab (snd p) /\ exists at_ px ix, operators f (snd p) (a :: alts) at_ px ix /\
             fst p = mkPratt (pt_atoms res ++ at_) (pt_prefixes res ++ px) (pt_infixes res ++ ix))).
      { intros op K OV HK. destruct (variant_op r v op IR VR OV) as (VO & XO & PO).
        apply (decided_iff _ (compilable f op /\ (forall x, In x alts -> alt_fits x))).
        { rewrite FIT. split; [intros (A & B); split; [|exact B]; intros op' E; congruence|intros (A & B); split; [exact (A op OV)|exact B]]. }
        eapply decided_try; [exact (gens_ext fuel (gen_all fuel) op tab VO XO PO ltac:(lia) LT)|]. intros (i, t1) (X & C). cbn [fst snd] in *.
        pose proof (ext_length _ _ X) as LX. eapply decided_weak; [|exact (HK i t1 ltac:(lia) C)]. intros p (X' & Y). split; [exact (ext_trans _ _ _ X X')|exact Y]. }
      destruct v as [b|op p|op p|op p].
      + destruct (syn_rule_ref_v r IR) as (i & -> & RN). cbn [bind]. apply (decided_iff _ (forall x, In x alts -> alt_fits x)).
        { rewrite FIT. split; [intros H; split; [intros op E; discriminate E|exact H]|intros (_ & H); exact H]. }
        eapply decided_weak; [|exact (IH VS _ tab LT)]. intros q (X & at_ & px & ix & OP & E). cbn [pt_atoms pt_prefixes pt_infixes] in E. split; [exact X|].
        exists (i :: at_), px, ix. split; [exact (o_atom f _ a r t b i alts at_ px ix AR O VR RN OP)|]. rewrite E, <- app_assoc. reflexivity.
      + apply (STEP op _ eq_refl). intros i t1 LT1 C. eapply decided_weak; [|exact (IH VS _ t1 LT1)]. intros q (X & at_ & px & ix & OP & E).
        cbn [pt_atoms pt_prefixes pt_infixes] in E. split; [exact X|]. exists at_, px, (mkInfix t i (N.to_nat p) true :: ix).
        split; [exact (o_bin f _ a r t op p i alts at_ px ix AR O VR (compiled_mono f _ _ (ext_grows _ _ X) _ _ C) OP)|]. rewrite E, <- app_assoc. reflexivity.
      + apply (STEP op _ eq_refl). intros i t1 LT1 C. eapply decided_weak; [|exact (IH VS _ t1 LT1)]. intros q (X & at_ & px & ix & OP & E).
        cbn [pt_atoms pt_prefixes pt_infixes] in E. split; [exact X|]. exists at_, px, (mkInfix t i (N.to_nat p) false :: ix).
        split; [exact (o_postfix f _ a r t op p i alts at_ px ix AR O VR (compiled_mono f _ _ (ext_grows _ _ X) _ _ C) OP)|]. rewrite E, <- app_assoc. reflexivity.
      + apply (STEP op _ eq_refl). intros i t1 LT1 C. eapply decided_weak; [|exact (IH VS _ t1 LT1)]. intros q (X & at_ & px & ix & OP & E).
        cbn [pt_atoms pt_prefixes pt_infixes] in E. split; [exact X|]. exists at_, (mkPrefix t i (N.to_nat p) :: px), ix.
        split; [exact (o_prefix f _ a r t op p i alts at_ px ix AR O VR (compiled_mono f _ _ (ext_grows _ _ X) _ _ C) OP)|]. rewrite E, <- app_assoc. reflexivity.
  Qed.

  Lemma operators_below : forall tab alts at_ px ix, R <= length tab -> operators f tab alts at_ px ix ->
    refers_below f (length tab) (EPratt (mkPratt at_ px ix)).
  Proof.
    intros tab alts at_ px ix L H. unfold refers_below. cbn [mentions types_in params_in pt_atoms pt_prefixes pt_infixes].
    assert (RN : forall r i, rule_number f r i -> i < length tab).
    { intros r i E. apply Nat.lt_le_trans with (m := R); [|exact L]. apply nth_error_Some. unfold rule_number in E. congruence. }
    assert (TB : forall r t, rule_type f r t -> 1 <= t <= length types) by (intros r t (s & _ & N); exact (type_bound s t N)).
    split; [|split; [|split; [intros p []|exact I]]].
    - induction H as [|a r t b i l at_ px ix A B C D H IH|a r t op p i l at_ px ix A B C D H IH|a r t op p i l at_ px ix A B C D H IH|a r t op p i l at_ px ix A B C D H IH];
        intros j J; [destruct J|..]; repeat rewrite in_app_iff in *; cbn [map In px_op ix_op] in J.
      + destruct J as [[<-|J]|J]; [exact (RN r i D)| |]; apply IH; rewrite !in_app_iff; tauto.
      + destruct J as [J|[[<-|J]|J]]; [|exact (compiled_bound f tab L op i D)| |]; apply IH; rewrite !in_app_iff; tauto.
      + destruct J as [J|[J|[<-|J]]]; [| |exact (compiled_bound f tab L op i D)|]; apply IH; rewrite !in_app_iff; tauto.
      + destruct J as [J|[J|[<-|J]]]; [| |exact (compiled_bound f tab L op i D)|]; apply IH; rewrite !in_app_iff; tauto.
    - induction H as [|a r t b i l at_ px ix A B C D H IH|a r t op p i l at_ px ix A B C D H IH|a r t op p i l at_ px ix A B C D H IH|a r t op p i l at_ px ix A B C D H IH];
        intros j J; [destruct J|..]; repeat rewrite in_app_iff in *; cbn [map In px_ty ix_ty] in J.
      + apply IH; rewrite in_app_iff; tauto.
      + destruct J as [[<-|J]|J]; [exact (TB r t B)| |]; apply IH; rewrite in_app_iff; tauto.
      + destruct J as [J|[<-|J]]; [|exact (TB r t B)|]; apply IH; rewrite in_app_iff; tauto.
      + destruct J as [J|[<-|J]]; [|exact (TB r t B)|]; apply IH; rewrite in_app_iff; tauto.
  Qed.

  (** *** Rules *)
  Hypothesis BB : block_bodies f.

  Definition body_fits (r b : nat) : Prop :=
    (has_attr f r s_pratt = false -> compilable f b) /\
    (has_attr f r s_pratt = true -> ty f b = BLOCK_EXPR /\ forall a, In a (exprs f b) -> alt_fits a).

  Lemma gen_body : forall r b l tab, In r rules -> exprs f r = b :: l -> R <= length tab ->
    decided (body_fits r b)
      (if has_attr f r s_pratt then
         t <- node_ty nodes b ;;
         if t =? BLOCK_EXPR then
           alts <- ast_children f is_expr b ;;
           '(p, tab) <! gen_pratt f ask types fuel alts (mkPratt [] [] []) tab ;;
           done (push (EPratt p) tab)
         else Panic
       else gen fuel b tab)
      (fun p => exists tab1 x, ext tab tab1 /\ p = (length tab1, tab1 ++ [x]) /\ body_is f tab1 r x /\ refers_below f (length tab1) x).
  Proof.
    intros r b l tab IR ER LT. assert (JB : In b (exprs f r)) by (rewrite ER; left; reflexivity).
    destruct (exprs_in f T WF r b JB) as (VB & PB & XB). destruct (BB r IR) as (b' & l' & ER' & TB). rewrite ER in ER'. injection ER' as <- <-.
    unfold body_fits. destruct (has_attr f r s_pratt) eqn:HP.
    - rewrite (ty_v f b VB). cbn [bind]. rewrite TB, Nat.eqb_refl. rewrite (children_expr_v f T WF b VB). cbn [bind].
      apply (decided_iff _ ((forall a, In a (exprs f b) -> alt_fits a) /\ True)); [intuition discriminate|].
      eapply decided_try; [exact (gen_pratt_ok (exprs f b) (fun a J => proj1 (exprs_in f T WF b a J)) _ tab LT)|].
      intros (p, t) (X & at_ & px & ix & OP & E). cbn [fst snd pt_atoms pt_prefixes pt_infixes app] in *. subst p. apply decided_yes; [exact I|].
      pose proof (ext_length _ _ X) as LX. exists t, (EPratt (mkPratt at_ px ix)). split; [exact X|]. split; [reflexivity|].
      split; [exact (b_pratt f t r b l at_ px ix HP ER TB OP)|]. apply (operators_below t (exprs f b)); [lia|exact OP].
    - apply (decided_iff _ (compilable f b)); [intuition discriminate|].
      eapply decided_weak; [|exact (gen_all fuel b tab VB XB (placed_body r b IR JB) ltac:(lia) LT)].
      intros (i, t) [(_ & r' & TR & _)|(tab1 & x & X & E & E' & W & RB)]; [clash|]. cbn [fst snd] in *. subst i t.
      exists tab1, x. split; [exact X|]. split; [reflexivity|]. split; [exact (b_plain f tab1 r b l x HP ER W)|exact RB].
  Qed.

  Lemma below_mono : forall k k' x, k <= k' -> refers_below f k x -> refers_below f k' x.
  Proof. intros k k' x L (A & B). split; [intros j J; specialize (A j J); lia|exact B]. Qed.

  Lemma typed_not_pratt : forall r t, rule_type f r t -> has_attr f r s_pratt = false.
  Proof. intros r t (s & (_ & N & _) & _). apply has_attr_none. exact N. Qed.

  Lemma body_at_push : forall tab1 r x, R <= length tab1 -> body_is f tab1 r x -> body_at f (tab1 ++ [x]) r (length tab1).
  Proof.
    intros tab1 r x L B. split; [exact L|]. exists x. split; [rewrite nth_error_app2 by lia; rewrite Nat.sub_diag; reflexivity|].
    exact (body_mono f _ _ (grows_app f _ _) r x B).
  Qed.
  Lemma refers_one : forall k b (x : expr), mentions x = [b] -> b < k -> CodegenSpec.params_in x = [] -> (forall t, In t (types_in x) -> 1 <= t <= length types) ->
    (match x with EAnd _ _ => False | _ => True end) -> refers_below f k x.
  Proof.
    intros k b x M L P TI C. split; [rewrite M; intros j [<-|[]]; exact L|]. split; [exact TI|]. split; [rewrite P; intros p []|]. destruct x; try exact I. destruct C.
  Qed.

  Lemma gen_rule_ok : forall r tab, In r rules -> R <= length tab ->
    decided (compilable_rule f r) (gen_rule f ask types fuel r tab)
      (fun p => ext tab (snd p) /\ rule_is f (snd p) r (fst p) /\ refers_below f (length (snd p)) (fst p)).
  Proof.
    intros r tab IR LT. pose proof (rules_in f T WF r IR) as AR. pose proof (proj1 AR) as VR. unfold gen_rule. rewrite (is_pratt_v r VR). cbn [bind].
    unfold rule_body, ast_child. rewrite (children_expr_v f T WF r VR). cbn [bind].
    destruct (exprs f r) as [|b l] eqn:ER; [destruct (co_body f CO r AR ER)|]. cbn [hd_error unwrap bind].
    destruct (syn_rule_ty_v r VR) as (o & EO & O).
    apply (decided_iff _ (body_fits r b /\ (has_attr f r s_replaces = true -> exists t, rule_type f r t))).
    { unfold compilable_rule, body_fits, alt_fits. split.
      - intros ((A & B) & C). exists b, l. auto.
      - intros (b' & l' & E & A & B & C). rewrite ER in E. injection E as <- <-. auto. }
    eapply decided_try; [exact (gen_body r b l tab IR ER LT)|]. intros (i, t) (tab1 & x & X & E & BI & RB). injection E as -> ->.
    pose proof (ext_length _ _ X) as LX. assert (L1 : R <= length tab1) by lia.
    rewrite EO. cbn [bind]. rewrite (has_attribute_v r s_replaces VR). cbn [bind]. rewrite (has_attribute_v r s_cached VR). cbn [bind].
    pose proof (ext_trans _ _ _ X (ext_push _ _ RB)) as X1. pose proof (body_at_push tab1 r x L1 BI) as BA.
    assert (LL : length (tab1 ++ [x]) = S (length tab1)) by (rewrite app_length; cbn [length]; lia).
    destruct o as [ty|].
    - assert (TB : 1 <= ty <= length types) by (destruct O as (s & _ & N); exact (type_bound s ty N)).
      destruct (has_attr f r s_replaces) eqn:HR.
      + apply decided_yes; [intros _; exists ty; exact O|]. cbn [fst snd]. split; [exact X1|]. split; [exact (r_replace f _ r ty _ O HR BA)|].
        apply (refers_one _ (length tab1)); [reflexivity|lia|reflexivity| |exact I]. intros t [<-|[]]. exact TB.
      + destruct (has_attr f r s_cached) eqn:HC.
        * cbn [push]. unfold push. rewrite (has_attribute_v r s_replaceable VR). cbn [bind].
          assert (RC : refers_below f (length (tab1 ++ [x])) (ECached (length tab1))).
          { apply (refers_one _ (length tab1)); [reflexivity|lia|reflexivity|intros t []|exact I]. }
          apply decided_yes; [discriminate|]. cbn [fst snd]. split; [exact (ext_trans _ _ _ X1 (ext_push _ _ RC))|]. split.
          { apply (r_cached_node f _ r ty (length tab1) _ O HR HC); [exact (body_at_mono f _ _ (grows_app f _ _) r _ BA)|lia|].
            rewrite nth_error_app2 by lia. rewrite Nat.sub_diag. reflexivity. }
          apply (refers_one _ (length (tab1 ++ [x]))); [reflexivity|rewrite (app_length (tab1 ++ [x])); cbn [length]; lia|reflexivity| |exact I]. intros t [<-|[]]. exact TB.
        * rewrite (has_attribute_v r s_replaceable VR). cbn [bind].
          apply decided_yes; [discriminate|]. cbn [fst snd]. split; [exact X1|]. split; [exact (r_node f _ r ty _ O HR HC BA)|].
          apply (refers_one _ (length tab1)); [reflexivity|lia|reflexivity| |exact I]. intros t [<-|[]]. exact TB.
    - destruct (has_attr f r s_replaces) eqn:HR.
      { right. split; [|right; reflexivity]. intros H. destruct (H eq_refl) as (t & RT). exact (O t RT). }
      assert (CL : forall A (k : outcome A), check_last (length tab1) (tab1 ++ [x]) k = k).
      { intros A k. unfold check_last. rewrite LL. unfold usub. cbn [Nat.ltb Nat.leb Nat.sub]. rewrite Nat.sub_0_r. cbn [bind]. rewrite Nat.eqb_refl. reflexivity. }
      destruct (has_attr f r s_cached) eqn:HC.
      + rewrite CL. apply decided_yes; [discriminate|]. cbn [fst snd]. split; [exact X1|]. split; [exact (r_cached f _ r _ O HR HC BA)|].
        apply (refers_one _ (length tab1)); [reflexivity|lia|reflexivity|intros t []|exact I].
      + rewrite CL. rewrite nth_error_app2 by lia. rewrite Nat.sub_diag. cbn [nth_error unwrap bind]. rewrite removelast_last.
        apply decided_yes; [discriminate|]. cbn [fst snd]. split; [exact X|]. split; [exact (r_body f _ r x O HR HC BI)|exact RB].
  Qed.

  (** *** The table *)

  (** The first [i] rules are done. *)
  Definition rows (i : nat) (tab : list expr) : Prop :=
    R <= length tab /\
    (forall j r, j < i -> nth_error rules j = Some r -> exists x, nth_error tab j = Some x /\ rule_is f tab r x /\ refers_below f (length tab) x) /\
    (forall k x, R <= k -> nth_error tab k = Some x -> refers_below f k x).

  Lemma gen_rules_ok : forall l i tab, skipn i rules = l -> rows i tab ->
    decided (forall r, In r l -> compilable_rule f r) (gen_rules f ask types fuel l i tab) (rows R).
  Proof.
    intros l. induction l as [|r l IH]; intros i tab SK (LT & RW & CL); cbn [gen_rules].
    - apply decided_yes; [intros r []|]. split; [exact LT|]. split; [|exact CL]. intros j r J E. apply (RW j r); [|exact E].
      assert (R <= i) by (destruct (le_lt_dec R i) as [H|H]; [exact H|]; apply (f_equal (@length nat)) in SK; rewrite skipn_length in SK; cbn [length] in SK; lia). lia.
    - assert (NI : nth_error rules i = Some r).
      { pose proof (nth_error_skipn _ rules i 0) as NS. rewrite SK, Nat.add_0_r in NS. symmetry. exact NS. }
      assert (LI : i < R) by (apply nth_error_Some; congruence).
      assert (IR : In r rules) by (apply nth_error_In with (n := i); exact NI).
      apply (decided_iff _ (compilable_rule f r /\ (forall x, In x l -> compilable_rule f x))).
      { split; [intros (X & Y) x [<-|J]; [exact X|exact (Y x J)]|intros X; split; [exact (X r (or_introl eq_refl))|intros x J; exact (X x (or_intror J))]]. }
      eapply decided_try; [exact (gen_rule_ok r tab IR LT)|]. intros (x, t) (X & RI & RB). cbn [fst snd] in *. pose proof (ext_length _ _ X) as LX.
      apply IH.
      + assert (SK' : skipn 1 (skipn i rules) = l) by (rewrite SK; reflexivity). rewrite skipn_skipn, Nat.add_1_r in SK'. exact SK'.
      + assert (G : grows f t (set_nth i x t)) by (apply grows_set; exact LI). split; [rewrite set_nth_length; lia|]. split.
        * intros j r' J E. rewrite set_nth_length. destruct (Nat.eq_dec j i) as [->|NE].
          -- rewrite NI in E. injection E as <-. exists x. split; [apply nth_error_set_nth_eq; lia|]. split; [exact (rule_mono f _ _ G r x RI)|exact RB].
          -- destruct (RW j r' ltac:(lia) E) as (y & EY & RY & BY). exists y. split; [|split].
             ++ rewrite nth_error_set_nth_neq by lia. destruct X as ((mid & ->) & _). rewrite nth_error_app1; [exact EY|]. apply nth_error_Some. congruence.
             ++ exact (rule_mono f _ _ (grows_trans f _ _ _ (ext_grows _ _ X) G) r' y RY).
             ++ exact (below_mono _ _ y LX BY).
        * intros k y LK E. rewrite nth_error_set_nth_neq in E by lia. destruct (le_lt_dec (length tab) k) as [L'|L'].
          -- exact (proj2 X k y L' E).
          -- destruct X as ((mid & ->) & _). rewrite nth_error_app1 in E by exact L'. exact (CL k y LK E).
  Qed.

  Theorem gen_table_ok : decided (forall r, In r rules -> compilable_rule f r) (gen_table f ask types fuel)
    (fun tab => table_of_file f tab /\ closed f tab /\ R <= length tab).
  Proof.
    unfold gen_table. rewrite (syn_rules_v f T WF). cbn [bind]. eapply decided_weak; [|apply (gen_rules_ok rules 0)]; [|reflexivity|].
    - intros tab (LT & RW & CL). split; [|split; [|exact LT]].
      + intros i r E. destruct (RW i r) as (x & EX & RI & _); [|exact E|exists x; auto]. apply nth_error_Some. congruence.
      + intros k x E. destruct (k <? R) eqn:K.
        * apply Nat.ltb_lt in K. destruct (nth_error rules k) as [r|] eqn:ER; [|apply nth_error_None in ER; lia].
          destruct (RW k r K ER) as (y & EY & _ & RB). congruence.
        * apply Nat.ltb_ge in K. exact (CL k x K E).
    - split; [rewrite map_length; lia|]. split; [intros j r J; lia|]. intros k x LK E. exfalso.
      assert (k < length (map (fun _ : nat => EAny) rules)) by (apply nth_error_Some; congruence). rewrite map_length in *. lia.
  Qed.

  (** *** Tokens *)
  Lemma try_list_ok : forall A B (g : A -> outcome B) (P : A -> Prop) (Q : A -> B -> Prop) l,
    (forall a, In a l -> decided (P a) (g a) (Q a)) -> decided (forall a, In a l -> P a) (try_list g l) (Forall2 Q l).
  Proof.
    intros A B g P Q l. induction l as [|a l IH]; intros D; cbn [try_list].
    - apply decided_yes; [intros a []|constructor].
    - apply (decided_iff _ (P a /\ ((forall x, In x l -> P x) /\ True))).
      { split; [intros (X & Y & _) x [<-|J]; [exact X|exact (Y x J)]|intros X; split; [exact (X a (or_introl eq_refl))|split; [intros x J; exact (X x (or_intror J))|exact I]]]. }
      eapply decided_try; [exact (D a (or_introl eq_refl))|]. intros b HB.
      eapply decided_try; [exact (IH (fun x J => D x (or_intror J)))|]. intros bs HBS. apply decided_yes; [exact I|]. constructor; assumption.
  Qed.

  Section Lexer.
  Variable escape debug : bytes -> bytes.

  Lemma token_re_v : forall t, valid f t -> decided (exists b, pattern f escape t b) (token_re f escape t) (pattern f escape t).
  Proof.
    intros t V. unfold token_re. rewrite (lex_re_v t V). cbn [bind]. destruct (kid f STRING t) as [m|] eqn:K; cbn [option_map].
    2:{ right. split; [intros (b & m & c & E & _); congruence|left; reflexivity]. }
    destruct (lit_body_cases (str f m)) as [(b & -> & B)|(-> & B)]; cbn [bind].
    - left. fold (raw (str f m)). assert (PT : pattern f escape t (if raw (str f m) then b else escape b)) by (exists m, b; auto).
      split; [eexists; exact PT|]. eexists. split; [reflexivity|exact PT].
    - right. split; [|right; reflexivity]. intros (b & m' & c & E & F & _). rewrite K in E. injection E as <-. exact (B c F).
  Qed.
  Lemma extern_fn_v : forall t, valid f t -> (exists o, extern_fn f t = Ok o /\ custom f t o) \/ (extern_fn f t = Panic /\ forall o, ~ custom f t o).
  Proof.
    intros t V. unfold extern_fn, custom. rewrite (kids_of_v STRING t V). cbn [bind]. destruct (nth_error (kids_of f STRING t) 1) as [m|] eqn:N.
    2:{ left. exists None. split; reflexivity. }
    assert (VM : valid f m) by (apply nth_error_In in N; exact (proj1 (proj2 (kids_of_in f T WF _ _ _ N)))).
    rewrite (text_v f T WF CT m VM). cbn [bind]. destruct (lit_body_cases (str f m)) as [(b & -> & B)|(-> & B)]; cbn [bind].
    - left. exists (Some b). split; [reflexivity|]. exists b. auto.
    - right. split; [reflexivity|]. intros o (b & L & _). exact (B b L).
  Qed.

  Definition lexable (t : nat) : Prop := (exists b, pattern f escape t b) /\ exists o, custom f t o.
  Theorem gen_lex_ok : decided (kid f TOKENIZER_DEF 0 <> None /\ forall t, In t (matched_tokens f) -> lexable t)
    (gen_lex f escape debug) (Forall2 (lex_rule_is f escape debug) (matched_tokens f)).
  Proof.
    unfold gen_lex, file_tokenizer. change root with 0. rewrite (ast_child_v f T WF TOKENIZER_DEF 0 (root_valid f T WF)). cbn [bind].
    unfold matched_tokens, AnalysisSpec.tokens. destruct (kid f TOKENIZER_DEF 0) as [td|] eqn:K.
    2:{ right. split; [intros (H & _); exact (H eq_refl)|left; reflexivity]. }
    unfold ok_or. rewrite try_some. pose proof (kid_valid f T WF _ _ _ K) as VT. rewrite (children_is_v f T WF LEX_RULE td VT). cbn [bind].
    rewrite (filter_res_pure _ _ (fun t => negb (has_attr f t s_contextual))).
    2:{ intros t J. rewrite (has_attribute_v t s_contextual (proj1 (proj2 (kids_of_in f T WF _ _ _ J)))). reflexivity. }
    cbn [bind]. eapply decided_iff; [|apply try_list_ok with (P := lexable)]; [split; [intros H; split; [discriminate|exact H]|intros (_ & H); exact H]|].
    intros t J. apply filter_In in J. destruct J as (J & _). destruct (kids_of_in f T WF _ _ _ J) as (_ & VL & TL).
    destruct (name_of f t) as [s|] eqn:NM; [|destruct (co_named f CO t LEX_RULE ltac:(cbn [In]; auto) (conj VL TL) NM)].
    change (o <- token_re f escape t;; re <! ok_or o;; n <- node_type f t;; g <- extern_fn f t;; done (mkCtxLex n (debug re) g))
      with (re <! token_re f escape t;; n <- node_type f t;; g <- extern_fn f t;; done (mkCtxLex n (debug re) g)).
    unfold lexable. eapply decided_try; [exact (token_re_v t VL)|]. intros b PB. unfold node_type. rewrite (name_text f T WF CT t s VL NM). cbn [bind].
    destruct (extern_fn_v t VL) as [(o & -> & C)|(-> & C)]; cbn [bind].
    - apply decided_yes; [exists o; exact C|]. unfold lex_rule_is. cbn [cl_ty cl_re cl_fn]. split; [exact NM|]. split; [exists b; auto|exact C].
    - right. split; [|right; reflexivity]. intros (o & H). exact (C o H).
  Qed.
  End Lexer.
End Gen.
