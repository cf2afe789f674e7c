(** The accessors of the AST in terms of the plain view of the node table in AnalysisSpec.v. *)
From Coq Require Import List Arith Bool NArith Lia.
From Verif Require Import Base BaseFacts TextModel TreeModel SearchModel IndexModel DbModel AnalysisModel
  TextSpec TreeSpec SearchSpec FileEditSpec EditorSpec AnalysisSpec
  TextProofs TreeProofs SearchProofs TraversalProofs EditorProofs.
Import ListNotations.

(** ** Lists *)

Lemma filter_res_pure : forall A (p : A -> res bool) (g : A -> bool) l,
  (forall a, In a l -> p a = Ok (g a)) -> filter_res p l = Ok (filter g l).
Proof.
  intros A p g. induction l as [|a l IH]; intros H; [reflexivity|]. cbn [filter_res filter].
  rewrite (H a (or_introl eq_refl)). cbn [bind]. rewrite IH by (intros b I; apply H; right; exact I). cbn [bind].
  destruct (g a); reflexivity.
Qed.

Lemma find_res_pure : forall A (p : A -> res bool) (g : A -> bool) l,
  (forall a, In a l -> p a = Ok (g a)) -> find_res p l = Ok (find_first g l).
Proof.
  intros A p g. induction l as [|a l IH]; intros H; [reflexivity|]. cbn [find_res find_first].
  rewrite (H a (or_introl eq_refl)). cbn [bind]. destruct (g a); [reflexivity|].
  apply IH. intros b I. apply H. right. exact I.
Qed.

Lemma fold_res_pure : forall A B (p : A -> B -> res A) (g : A -> B -> A) l acc,
  (forall a b, In b l -> p a b = Ok (g a b)) -> fold_res p acc l = Ok (fold_left g l acc).
Proof.
  intros A B p g. induction l as [|b l IH]; intros acc H; [reflexivity|]. cbn [fold_res fold_left].
  rewrite (H acc b (or_introl eq_refl)). cbn [bind]. apply IH. intros a c I. apply H. right. exact I.
Qed.

Lemma hd_error_in : forall A (l : list A) a, hd_error l = Some a -> In a l.
Proof. intros A [|x l] a E; [discriminate E|]. injection E as ->. left. reflexivity. Qed.

Lemma find_first_such : forall A (g : A -> bool) (P : A -> Prop) l, (forall a, In a l -> (g a = true <-> P a)) ->
  match find_first g l with Some a => first_such P l a | None => none_such P l end.
Proof.
  intros A g P l H. pose proof (find_first_spec A g l) as F. destruct (find_first g l) as [a|].
  - destruct F as (l1 & l2 & -> & G & N). exists l1, l2. split; [reflexivity|]. split.
    + apply H; [apply in_elt|exact G].
    + intros x I Q. apply H in Q; [|apply in_or_app; left; exact I]. rewrite (N x I) in Q. discriminate Q.
  - intros x I Q. apply (H x I) in Q. rewrite (F x I) in Q. discriminate Q.
Qed.

Lemma first_such_fun : forall A (P : A -> Prop) l a b, first_such P l a -> first_such P l b -> a = b.
Proof.
  intros A P l a b (p & q & -> & Pa & Na) (p' & q' & E & Pb & Nb). revert p' E Nb. induction p as [|x p IH]; intros p' E Nb.
  - destruct p' as [|y p']; cbn [app] in E; injection E as E1 E2; [exact E1|]. exfalso. apply (Nb y (or_introl eq_refl)). rewrite <- E1. exact Pa.
  - destruct p' as [|y p']; cbn [app] in E; injection E as E1 E2.
    + exfalso. apply (Na x (or_introl eq_refl)). rewrite E1. exact Pb.
    + apply (IH (fun z I => Na z (or_intror I)) p' E2 (fun z I => Nb z (or_intror I))).
Qed.

Lemma last_such_fun : forall A (P : A -> Prop) l a b, last_such P l a -> last_such P l b -> a = b.
Proof.
  intros A P l a b H1 H2.
  assert (R : forall x, last_such P l x -> first_such P (rev l) x).
  { intros x (p & q & -> & Px & N). exists (rev q), (rev p). split; [rewrite rev_app_distr; cbn [rev]; rewrite <- app_assoc; reflexivity|].
    split; [exact Px|]. intros y I. apply N. apply in_rev. exact I. }
  exact (first_such_fun _ _ _ _ _ (R _ H1) (R _ H2)).
Qed.

Lemma first_not_none : forall A (P : A -> Prop) l a, first_such P l a -> none_such P l -> False.
Proof. intros A P l a (p & q & -> & Pa & _) N. exact (N a (in_elt _ _ _) Pa). Qed.

Lemma last_not_none : forall A (P : A -> Prop) l a, last_such P l a -> none_such P l -> False.
Proof. intros A P l a (p & q & -> & Pa & _) N. exact (N a (in_elt _ _ _) Pa). Qed.

Lemma first_such_in : forall A (P : A -> Prop) l a, first_such P l a -> In a l.
Proof. intros A P l a (p & q & -> & _). apply in_elt. Qed.

Lemma last_such_in : forall A (P : A -> Prop) l a, last_such P l a -> In a l.
Proof. intros A P l a (p & q & -> & _). apply in_elt. Qed.

(** ** Quoted strings *)

Lemma rfind_last : forall q l, rfind_byte q (l ++ [q]) = Some (length l).
Proof.
  intros q l. induction l as [|b l IH]; cbn [app rfind_byte length].
  - rewrite Nat.eqb_refl. reflexivity.
  - rewrite IH. reflexivity.
Qed.

Lemma lit_body_quoted : forall b, lit_body (39 :: b ++ [39]) = Ok b.
Proof.
  intros b. unfold lit_body. cbn [is_prefix Nat.eqb andb find_sub unwrap bind].
  change (rfind_byte 39 (39 :: b ++ [39])) with (rfind_byte 39 ((39 :: b) ++ [39])). rewrite rfind_last. cbn [unwrap bind length].
  replace (0 + 1 <=? S (length b)) with true by (symmetry; apply Nat.leb_le; lia). cbn [guard]. unfold sub.
  cbn [Nat.add skipn]. rewrite Nat.sub_succ, Nat.sub_0_r, firstn_app, Nat.sub_diag, firstn_all. cbn [firstn]. rewrite app_nil_r. reflexivity.
Qed.

(** ** The view *)
Section View.
  Variables (f : file) (T : tree).
  Hypothesis WF : wf_file f T.
  Hypothesis CT : char_tree (f_text f) T.
  Notation nodes := (f_nodes f).

  Let ST : stores nodes T := proj1 WF.

  Lemma valid_at : forall n, valid f n -> exists p q t, At T n p q t /\ nth_error nodes n = Some (data_of n p q t).
  Proof.
    intros n V. unfold valid in V. rewrite (proj1 ST) in V. destruct (At_total T n V) as (p & q & t & A). exists p, q, t.
    split; [exact A|]. exact (proj2 ST _ _ _ _ A).
  Qed.

  Lemma at_valid : forall n p q t, At T n p q t -> valid f n.
  Proof. intros n p q t A. unfold valid. rewrite (proj1 ST). apply At_bound in A. pose proof (tsize_pos t). lia. Qed.

  Lemma root_valid : valid f 0.
  Proof. exact (at_valid _ _ _ _ (At_root T)). Qed.

  Lemma get_v : forall A (d : A) g n, valid f n -> (x <- node_get nodes n ;; Ok (g x)) = Ok (at_node f d g n).
  Proof.
    intros A d g n V. unfold node_get, index, at_node. destruct (nth_error nodes n) as [x|] eqn:E; [reflexivity|].
    apply nth_error_None in E. unfold valid in V. lia.
  Qed.

  Lemma ty_v : forall n, valid f n -> node_ty nodes n = Ok (ty f n).
  Proof. intros n V. exact (get_v _ _ _ _ V). Qed.
  Lemma kids_v : forall n, valid f n -> node_children nodes n = Ok (kids f n).
  Proof. intros n V. exact (get_v _ _ _ _ V). Qed.
  Lemma par_v : forall n, valid f n -> node_parent nodes n = Ok (par f n).
  Proof. intros n V. exact (get_v _ _ _ _ V). Qed.
  Lemma rng_v : forall n, valid f n -> node_range nodes n = Ok (rng f n).
  Proof. intros n V. exact (get_v _ _ _ _ V). Qed.

  Lemma kids_in : forall n c, In c (kids f n) -> valid f c /\ par f c = Some n.
  Proof.
    intros n c I. unfold kids, at_node in I. destruct (nth_error nodes n) as [d|] eqn:E; [|destruct I].
    destruct (stores_links _ _ ST n d E) as (_ & L & _). apply L in I. destruct I as (dc & E' & P). split.
    - unfold valid. apply nth_error_Some. rewrite E'. discriminate.
    - unfold par, at_node. rewrite E'. exact P.
  Qed.

  Lemma kids_valid : forall n c, In c (kids f n) -> valid f c.
  Proof. intros n c I. exact (proj1 (kids_in _ _ I)). Qed.

  Lemma par_in : forall n q, valid f n -> par f n = Some q -> valid f q /\ q < n /\ In n (kids f q).
  Proof.
    intros n q V P. destruct (valid_at n V) as (p & par0 & t & A & E). unfold par, at_node in P. rewrite E in P. cbn [data_of n_parent] in P. subst par0.
    pose proof (At_parent _ _ _ _ _ A) as (pd & qd & ty0 & pre & post & Hd & E1 & _).
    pose proof (at_valid _ _ _ _ Hd) as V'. split; [exact V'|]. split; [lia|].
    unfold kids, at_node. destruct (nth_error nodes q) as [d|] eqn:E'; [|apply nth_error_None in E'; unfold valid in V'; lia].
    destruct (stores_links _ _ ST q d E') as (_ & L & _). apply L. exists (data_of n p (Some q) t). split; [exact E|reflexivity].
  Qed.

  Lemma par_root : par f 0 = None.
  Proof.
    destruct (valid_at 0 root_valid) as (p & q & t & A & E). unfold par, at_node. rewrite E. cbn [data_of n_parent].
    destruct (At_unique _ _ _ _ _ _ _ _ A (At_root T)) as (_ & -> & _). reflexivity.
  Qed.

  Lemma kids_nodup : forall n, NoDup (kids f n).
  Proof.
    intros n. unfold kids, at_node. destruct (nth_error nodes n) as [d|] eqn:E; [|constructor].
    exact (proj1 (stores_links _ _ ST n d E)).
  Qed.

  Lemma kids_of_in : forall t n c, In c (kids_of f t n) -> In c (kids f n) /\ is_a f t c.
  Proof.
    intros t n c I. apply filter_In in I. destruct I as (I & E). apply Nat.eqb_eq in E. split; [exact I|]. split; [|exact E].
    exact (kids_valid _ _ I).
  Qed.

  Lemma kid_in : forall t n c, kid f t n = Some c -> In c (kids f n) /\ is_a f t c.
  Proof. intros t n c E. apply kids_of_in with (t := t). apply hd_error_in. exact E. Qed.

  Lemma kid_valid : forall t n c, kid f t n = Some c -> valid f c.
  Proof. intros t n c E. exact (proj1 (proj2 (kid_in _ _ _ E))). Qed.

  Lemma exprs_in : forall n c, In c (exprs f n) -> valid f c /\ par f c = Some n /\ is_expr (ty f c) = true.
  Proof. intros n c I. apply filter_In in I. destruct I as (I & E). destruct (kids_in _ _ I) as (V & P). auto. Qed.

  Lemma text_v : forall n, valid f n -> text_of f n = Ok (str f n).
  Proof.
    intros n V. destruct (valid_at n V) as (p & q & t & A & E). unfold text_of.
    destruct (node_str f T WF CT n p q t A) as (x & -> & S). cbn [bind]. rewrite S. unfold str, rng, at_node. rewrite E. reflexivity.
  Qed.

  Lemma ast_children_v : forall w n, valid f n -> ast_children f w n = Ok (filter (fun c => w (ty f c)) (kids f n)).
  Proof.
    intros w n V. unfold ast_children. rewrite (kids_v n V). cbn [bind]. apply filter_res_pure. intros c I.
    rewrite (ty_v c (kids_valid _ _ I)). reflexivity.
  Qed.

  Lemma children_is_v : forall t n, valid f n -> ast_children f (is_ty t) n = Ok (kids_of f t n).
  Proof. intros t n V. exact (ast_children_v _ _ V). Qed.
  Lemma children_expr_v : forall n, valid f n -> ast_children f is_expr n = Ok (exprs f n).
  Proof. intros n V. exact (ast_children_v _ _ V). Qed.

  Lemma ast_child_v : forall t n, valid f n -> ast_child f (is_ty t) n = Ok (kid f t n).
  Proof. intros t n V. unfold ast_child. rewrite (children_is_v _ _ V). reflexivity. Qed.

  Lemma child_of_type_v : forall t n, valid f n -> child_of_type nodes n t = Ok (kid f t n).
  Proof.
    intros t n V. unfold child_of_type. rewrite (kids_v n V). cbn [bind]. rewrite (filter_res_pure _ _ (fun c => ty f c =? t)).
    - reflexivity.
    - intros c I. rewrite (ty_v c (kids_valid _ _ I)). reflexivity.
  Qed.

  Lemma child_text_v : forall t n, valid f n ->
    child_text f n t = match kid f t n with Some c => Ok (str f c) | None => Panic end.
  Proof.
    intros t n V. unfold child_text. rewrite (child_of_type_v _ _ V). cbn [bind]. destruct (kid f t n) as [c|] eqn:E; [|reflexivity].
    cbn [unwrap bind]. apply text_v. exact (kid_valid _ _ _ E).
  Qed.

  Lemma name_text : forall n s, valid f n -> name_of f n = Some s -> child_text f n IDENT = Ok s.
  Proof.
    intros n s V E. rewrite (child_text_v _ _ V). unfold name_of in E. destruct (kid f IDENT n) as [c|]; [|discriminate E].
    injection E as <-. reflexivity.
  Qed.

  Lemma syn_rules_v : file_syn_rules f = Ok (rules f).
  Proof. exact (children_is_v _ _ root_valid). Qed.

  Lemma lex_rules_v : file_lex_rules f = Ok (tokens f).
  Proof.
    unfold file_lex_rules, file_tokenizer. unfold root. rewrite (ast_child_v _ _ root_valid). cbn [bind]. unfold tokens.
    destruct (kid f TOKENIZER_DEF 0) as [t|] eqn:E; [|reflexivity]. apply children_is_v. exact (kid_valid _ _ _ E).
  Qed.

  Lemma rules_in : forall r, In r (rules f) -> is_a f SYN_RULE r.
  Proof. intros r I. exact (proj2 (kids_of_in _ _ _ I)). Qed.

  Lemma tokens_in : forall r, In r (tokens f) -> is_a f LEX_RULE r.
  Proof. intros r I. unfold tokens in I. destruct (kid f TOKENIZER_DEF 0); [|destruct I]. exact (proj2 (kids_of_in _ _ _ I)). Qed.

  Lemma params_in : forall r p, In p (params f r) -> is_a f PARAMETER p.
  Proof. intros r p I. unfold params in I. destruct (kid f PARAMETERS r); [|destruct I]. exact (proj2 (kids_of_in _ _ _ I)). Qed.

  Lemma params_v : forall r, valid f r -> rule_params f r = Ok (params f r).
  Proof.
    intros r V. unfold rule_params, rule_parameters. rewrite (ast_child_v _ _ V). cbn [bind]. unfold params.
    destruct (kid f PARAMETERS r) as [p|] eqn:E; [|reflexivity]. apply children_is_v. exact (kid_valid _ _ _ E).
  Qed.

  Lemma rule_name_v : forall n, valid f n -> rule_name f n = Ok (name_of f n).
  Proof.
    intros n V. unfold rule_name, rule_name_ident. rewrite (child_of_type_v _ _ V). cbn [bind]. unfold name_of.
    destruct (kid f IDENT n) as [c|] eqn:E; [|reflexivity]. rewrite (text_v c (kid_valid _ _ _ E)). reflexivity.
  Qed.

  Lemma ref_name_v : forall n s, valid f n -> ref_name f n = Some s -> reference_name f n = Ok s.
  Proof.
    intros n s V E. unfold reference_name. rewrite (child_of_type_v _ _ V). cbn [bind]. unfold ref_name in E.
    destruct (kid f IDENT n) as [c|] eqn:K.
    - injection E as <-. apply text_v. exact (kid_valid _ _ _ K).
    - rewrite (child_text_v _ _ V). destruct (kid f SIMPLE_STRING n); [|discriminate E]. injection E as <-. reflexivity.
  Qed.

  (** *** Tokens *)
  Definition tname (t : nat) : option bytes :=
    match kid f STRING t with
    | Some m => if is_prefix [39] (str f m) then Some (str f m) else name_of f t
    | None => name_of f t
    end.

  Lemma tname_called : forall s t, tname t = Some s <-> token_called f s t.
  Proof.
    intros s t. unfold tname, token_called. destruct (kid f STRING t) as [m|]; [|reflexivity].
    destruct (is_prefix [39] (str f m)); [|reflexivity]. split; [intros E; injection E as ->; reflexivity|intros ->; reflexivity].
  Qed.

  Lemma token_name_v : forall t, valid f t -> name_of f t <> None -> exists s, tname t = Some s /\ token_name f t = Ok s.
  Proof.
    intros t V N. destruct (name_of f t) as [s|] eqn:E; [|congruence]. unfold tname, token_name. rewrite (child_of_type_v _ _ V). cbn [bind].
    destruct (kid f STRING t) as [m|] eqn:K.
    - rewrite (text_v m (kid_valid _ _ _ K)). cbn [bind]. destruct (is_prefix [39] (str f m)); [eauto|]. exists s.
      split; [exact E|exact (name_text _ _ V E)].
    - exists s. split; [exact E|exact (name_text _ _ V E)].
  Qed.

  (** *** The enclosing rule *)
  Lemma enclosing_fun : forall n r r', enclosing_rule f n r -> enclosing_rule f n r' -> r = r'.
  Proof.
    intros n r r' H. induction H as [n E|n p r NE P H IH]; intros H'; inversion H' as [m E'|m p' r0 NE' P' H0]; subst; try congruence.
    rewrite P in P'. injection P' as <-. apply IH. exact H0.
  Qed.

  Lemma enclosing_is : forall n r, valid f n -> enclosing_rule f n r -> is_a f SYN_RULE r.
  Proof.
    intros n r V H. induction H as [n E|n p r NE P H IH]; [split; assumption|]. apply IH. exact (proj1 (par_in _ _ V P)).
  Qed.

  Lemma ancestors_v : forall fuel n, valid f n -> n < fuel -> exists l, ancestors_fuel fuel nodes n = Ok l /\
    (forall x, In x l -> valid f x) /\
    match hd_error (filter (fun m => ty f m =? SYN_RULE) l) with
    | Some r => enclosing_rule f n r
    | None => forall r, ~ enclosing_rule f n r
    end.
  Proof.
    induction fuel as [|fuel IH]; intros n V L; [lia|]. cbn [ancestors_fuel]. rewrite (par_v n V). cbn [bind].
    destruct (par f n) as [q|] eqn:P.
    - destruct (par_in _ _ V P) as (V' & LT & _). destruct (IH q V' ltac:(lia)) as (l & -> & VL & H). cbn [bind]. exists (n :: l).
      split; [reflexivity|]. split; [intros x [<-|I]; [exact V|exact (VL x I)]|]. cbn [filter].
      destruct (ty f n =? SYN_RULE) eqn:E.
      + apply Nat.eqb_eq in E. cbn [hd_error]. exact (er_here f n E).
      + apply Nat.eqb_neq in E. destruct (hd_error (filter (fun m => ty f m =? SYN_RULE) l)) as [r|].
        * exact (er_up f n q r E P H).
        * intros r X. inversion X as [m E'|m p' r0 NE' P' H0]; subst; [congruence|]. rewrite P in P'. injection P' as <-. exact (H r H0).
    - exists [n]. split; [reflexivity|]. split; [intros x [<-|[]]; exact V|]. cbn [filter]. destruct (ty f n =? SYN_RULE) eqn:E.
      + apply Nat.eqb_eq in E. cbn [hd_error]. exact (er_here f n E).
      + apply Nat.eqb_neq in E. cbn [hd_error]. intros r X. inversion X as [m E'|m p' r0 NE' P' H0]; subst; congruence.
  Qed.

  Lemma enclosing_v : forall n r, valid f n -> enclosing_rule f n r ->
    ast_ancestor nodes (is_ty SYN_RULE) n = Ok (Some r).
  Proof.
    intros n r V H. unfold ast_ancestor, ancestors. destruct (ancestors_v (length nodes) n V V) as (l & -> & VL & M). cbn [bind].
    rewrite (filter_res_pure _ _ (fun m => ty f m =? SYN_RULE)).
    - cbn [bind]. destruct (hd_error (filter (fun m => ty f m =? SYN_RULE) l)) as [r'|]; [|destruct (M r H)].
      rewrite (enclosing_fun _ _ _ M H). reflexivity.
    - intros m I. rewrite (ty_v m (VL m I)). reflexivity.
  Qed.

  (** *** Traversal *)
  Lemma order_valid : forall n, In n (post T 0) <-> valid f n.
  Proof. intros n. rewrite post_in. unfold valid. rewrite (proj1 ST). lia. Qed.

  Lemma descendants_v : forall t, descendants_of_type nodes root t = Ok (filter (fun m => ty f m =? t) (post T 0)).
  Proof.
    intros t. unfold root. rewrite (descendants_ok nodes T ST _ _ _ _ t (At_root T)). apply filter_res_pure. intros m I.
    apply order_valid in I. rewrite (ty_v m I). reflexivity.
  Qed.

  Lemma diag_v : forall s n m, valid f n -> diag f s n m = Ok (mkDiag (rng f n) s m).
  Proof. intros s n m V. unfold diag. rewrite (rng_v n V). reflexivity. Qed.
End View.
