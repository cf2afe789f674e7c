(** Proofs about extracting a rule, the outline and the test under the cursor. *)
From Coq Require Import List Arith Bool Lia.
From Verif Require Import Base BaseFacts TextModel TextSpec TextProofs EditModel TreeModel TreeSpec TreeProofs SearchModel SearchSpec SearchProofs
  TraversalProofs FileEditModel FileEditSpec FileEditProofs EditorModel EditorSpec EditorProofs DbModel AnalysisModel AnalysisSpec ViewProofs
  NestCheck FallNest NestProofs PropsNest FallEditModel FallEditSpec FallEditProofs.
Import ListNotations.

Lemma filter_split : forall (g : nat -> bool) k a m b, filter g k = a :: m ++ [b] ->
  exists pre mid post, k = pre ++ a :: mid ++ b :: post /\ g a = true /\ g b = true /\ forall x, In x pre \/ In x post -> g x = false.
Proof.
  intros g k a m b E.
  assert (F : forall (k : list nat) a m, filter g k = a :: m -> exists pre k', k = pre ++ a :: k' /\ g a = true /\ filter g k' = m /\ forall x, In x pre -> g x = false).
  { clear. induction k as [|y k IH]; intros a m E; [discriminate E|]. cbn [filter] in E. destruct (g y) eqn:G.
    - injection E as -> E. exists [], k. repeat split; auto. intros x [].
    - destruct (IH a m E) as (pre & k' & -> & GA & FE & N). exists (y :: pre), k'. repeat split; auto. intros x [<-|I]; auto. }
  assert (L : forall (k : list nat) m b, filter g k = m ++ [b] -> exists k' post, k = k' ++ b :: post /\ g b = true /\ forall x, In x post -> g x = false).
  { clear. induction k as [|y k IH]; intros m b E; [destruct m; discriminate E|]. cbn [filter] in E. destruct (g y) eqn:G.
    - destruct m as [|z m]; cbn in E.
      + injection E as -> E. exists [], k. repeat split; auto. intros x I. destruct (g x) eqn:X; [|reflexivity]. assert (J : In x (filter g k)) by (apply filter_In; auto). rewrite E in J. destruct J.
      + injection E as -> E. destruct (IH m b E) as (k' & post & -> & GB & N). exists (z :: k'), post. auto.
    - destruct (IH m b E) as (k' & post & -> & GB & N). exists (y :: k'), post. auto. }
  destruct (F k a (m ++ [b]) E) as (pre & k' & -> & GA & FE & N). destruct (L k' m b FE) as (mid & post & -> & GB & N').
  exists pre, mid, post. repeat split; auto. intros x [I|I]; auto.
Qed.

Lemma filter_nil : forall (g : nat -> bool) k, (forall x, In x k -> g x = false) -> filter g k = [].
Proof.
  intros g k. induction k as [|y k IH]; intros N; [reflexivity|]. cbn [filter]. rewrite (N y) by (left; reflexivity). apply IH. intros x I. apply N. right. exact I.
Qed.

Section Proofs.
  Variable f : file.
  Variable T : tree.
  Hypothesis WF : wf_file f T.
  Hypothesis CT : char_tree (f_text f) T.
  Hypothesis NF : nested_file f.
  Notation nodes := (f_nodes f).
  Let ST : stores nodes T := proj1 WF.

  Lemma chain_ok : forall n, valid f n -> exists l, ancestors nodes n = Ok l /\ (forall a, In a l <-> inside f n a) /\
    (forall l1 a l2, l = l1 ++ a :: l2 -> forall b, In b (a :: l2) -> inside f a b).
  Proof.
    intros n V. destruct (valid_at f T WF n V) as (p & q & t & A & _). destruct (ancestors_ok nodes T ST n p q t A) as (l & E & _ & _ & I & S). exists l. split; [exact E|]. split.
    - intros a. rewrite I. apply (below_inside f T WF).
    - intros l1 a l2 X b J. apply (below_inside f T WF). exact (S l1 a l2 X b J).
  Qed.

  Lemma inside_valid : forall n a, inside f n a -> valid f n /\ valid f a.
  Proof.
    intros n a I. apply (below_inside f T WF) in I. destruct (Below_At_l _ _ _ I) as (? & ? & ? & A). destruct (Below_At _ _ _ I) as (? & ? & ? & B).
    split; eapply (at_valid f T WF); eauto.
  Qed.
  Lemma inside_trans : forall a b c, inside f a b -> inside f b c -> inside f a c.
  Proof. intros a b c X Y. apply (below_inside f T WF). apply (below_inside f T WF) in X. apply (below_inside f T WF) in Y. eapply Below_trans; eauto. Qed.
  Lemma inside_antisym : forall a b, inside f a b -> inside f b a -> a = b.
  Proof. intros a b X Y. apply (below_inside f T WF) in X. apply (below_inside f T WF) in Y. eapply Below_antisym; eauto. Qed.

  Lemma covering : forall r, rstart r < rend r -> rend r <= length (f_text f) -> exists c, find_covering_node nodes root r = Ok c /\ holds_all f r c /\
    forall d, holds_all f r d -> inside f c d.
  Proof.
    intros r P L. destruct (covering_ok nodes T ST 0 0 None T r (At_root T)) as (c & E & _ & C & M); [unfold proper; lia|lia|rewrite (proj2 WF); exact L|].
    exists c. split; [exact E|]. split; [apply (covers_holds f T WF); exact C|]. intros d D. apply (below_inside f T WF). apply (M P). apply (covers_holds f T WF). exact D.
  Qed.

  (** The expression. *)
  Lemma selected_ok : forall r, rstart r < rend r -> rend r <= length (f_text f) ->
    exists c l o, find_covering_node nodes root r = Ok c /\ ancestors nodes c = Ok l /\ find_res (is_expression f) l = Ok o /\
      match o with Some e => selected f r e | None => forall e, ~ selected f r e end.
  Proof.
    intros r P L. destruct (covering r P L) as (c & EC & HC & MC). destruct (chain_ok c (proj1 HC)) as (l & EL & IL & SL). exists c, l, (find_first (fun n => is_expr (ty f n)) l).
    split; [exact EC|]. split; [exact EL|]. split.
    - rewrite (find_res_pure _ _ (fun n => is_expr (ty f n))); [reflexivity|]. intros n I. apply IL in I. unfold is_expression. rewrite (ty_v f n (proj2 (inside_valid _ _ I))). reflexivity.
    - pose proof (find_first_spec _ (fun n => is_expr (ty f n)) l) as F. destruct (find_first (fun n => is_expr (ty f n)) l) as [e|].
      + destruct F as (l1 & l2 & E & PE & N). assert (IE : inside f c e) by (apply IL; rewrite E; apply in_or_app; right; left; reflexivity).
        destruct (inside_valid _ _ IE) as (_ & VE). split; [split; assumption|]. split.
        * destruct (inside_range f T WF _ _ IE) as (R1 & R2). destruct HC as (_ & H1 & H2). split; [exact VE|]. lia.
        * intros m (VM & XM) HM. assert (IM : In m l) by (apply IL; apply MC; exact HM). rewrite E in IM. apply in_app_or in IM. destruct IM as [IM|IM].
          -- apply N in IM. congruence.
          -- exact (SL l1 e l2 E m IM).
      + intros e ((VE & XE) & HE & _). assert (IE : In e l) by (apply IL; apply MC; exact HE). apply F in IE. congruence.
  Qed.

  Lemma intersects_overlaps : forall a r, intersects a r = true <-> overlaps a r.
  Proof.
    intros a r. unfold intersects, disjoint, overlaps. rewrite negb_true_iff, orb_false_iff, !Nat.leb_gt. tauto.
  Qed.

  Lemma run_filter : forall r e a b, run_selected f r e a b <-> ty f e = SEQ_EXPR /\ is_expr (ty f a) = true /\ is_expr (ty f b) = true /\
    exists m, filter (fun n => intersects (rng f n) r) (kids f e) = a :: m ++ [b].
  Proof.
    intros r e a b. split.
    - intros (S & A & B & pre & mid & post & K & OA & OB & N). split; [exact S|]. split; [exact A|]. split; [exact B|].
      exists (filter (fun n => intersects (rng f n) r) mid). rewrite K, filter_app. cbn [filter]. rewrite (proj2 (intersects_overlaps _ _) OA).
      rewrite filter_app. cbn [filter]. rewrite (proj2 (intersects_overlaps _ _) OB).
      rewrite (filter_nil _ pre), (filter_nil _ post); [reflexivity| |].
      + intros x I. destruct (intersects (rng f x) r) eqn:X; [|reflexivity]. exfalso. apply (N x); [auto|]. apply intersects_overlaps. exact X.
      + intros x I. destruct (intersects (rng f x) r) eqn:X; [|reflexivity]. exfalso. apply (N x); [auto|]. apply intersects_overlaps. exact X.
    - intros (S & A & B & m & E). destruct (filter_split _ _ _ _ _ E) as (pre & mid & post & K & GA & GB & N). split; [exact S|]. split; [exact A|]. split; [exact B|].
      exists pre, mid, post. split; [exact K|]. split; [apply intersects_overlaps; exact GA|]. split; [apply intersects_overlaps; exact GB|].
      intros x I O. apply intersects_overlaps in O. rewrite (N x I) in O. discriminate O.
  Qed.

  (** What is moved holds the selection and is in the expression. *)
  Lemma run_holds : forall r e a b, rstart r < rend r -> holds_all f r e -> run_selected f r e a b ->
    valid f a /\ valid f b /\ rend (rng f a) <= rstart (rng f b) /\ rstart (rng f a) <= rstart r /\ rend r <= rend (rng f b) /\
    rstart (rng f e) <= rstart (rng f a) /\ rend (rng f b) <= rend (rng f e).
  Proof.
    intros r e a b P (VE & H1 & H2) (_ & _ & _ & pre & mid & post & K & OA & OB & N).
    assert (IA : In a (kids f e)) by (rewrite K; apply in_or_app; right; left; reflexivity).
    assert (IB : In b (kids f e)) by (rewrite K; apply in_or_app; right; right; apply in_or_app; right; left; reflexivity).
    destruct (kids_in f T WF e a IA) as (VA & PA). destruct (kids_in f T WF e b IB) as (VB & PB). split; [exact VA|]. split; [exact VB|].
    destruct (kids_before f T WF e _ _ _ _ _ K) as (L & _). split; [exact L|].
    assert (SUB : forall c, valid f c -> par f c = Some e -> rstart (rng f e) <= rstart (rng f c) /\ rend (rng f c) <= rend (rng f e)).
    { intros c VC PC. apply (inside_range f T WF). eapply in_up; [apply in_self; exact VC|exact PC]. }
    destruct (SUB a VA PA) as (SA1 & _). destruct (SUB b VB PB) as (_ & SB2).
    assert (BYTE : forall o, rstart (rng f e) <= o < rend (rng f e) -> exists c, In c (kids f e) /\ rstart (rng f c) <= o < rend (rng f c)).
    { intros o O. destruct (valid_at f T WF e VE) as (p & q & t & A & _). destruct (view_at f T WF _ _ _ _ A) as (_ & _ & _ & ER & EK). rewrite ER in O. cbn [rstart rend] in O.
      destruct t as [ty n|ty ts]; [rewrite EK in K; destruct pre; discriminate K|]. cbn [t_children] in EK. cbn [tlen] in O. fold (tlens ts) in O.
      assert (X : forall k ts, k <= o < k + tlens ts -> exists u x v, ts = u ++ x :: v /\ k + tlens u <= o < k + tlens u + tlen x).
      { clear. intros k ts. revert k. induction ts as [|x ts IH]; intros k O; [unfold tlens in O; cbn in O; lia|]. rewrite tlens_cons in O.
        destruct (Nat.lt_ge_cases o (k + tlen x)).
        - exists [], x, ts. split; [reflexivity|]. unfold tlens. cbn. lia.
        - destruct (IH (k + tlen x) ltac:(lia)) as (u & y & v & -> & U). exists (x :: u), y, v. split; [reflexivity|]. rewrite tlens_cons. lia. }
      destruct (X p ts O) as (u & x & v & -> & U). pose proof (At_child T _ _ _ _ _ _ _ A) as AC. exists (S e + tsizes u).
      destruct (view_at f T WF _ _ _ _ AC) as (VC & _ & PC & RC & _). rewrite RC. cbn [rstart rend]. split; [|lia].
      apply (par_in f T WF _ _ VC PC). }
    assert (SPLIT : forall c, In c (kids f e) -> overlaps (rng f c) r -> rstart (rng f a) <= rstart (rng f c) /\ rend (rng f c) <= rend (rng f b)).
    { intros c IC OC. assert (VC : valid f c) by exact (kids_valid f T WF e c IC). pose proof (rng_in f T WF c VC) as RC. pose proof (rng_in f T WF a VA) as RA. pose proof (rng_in f T WF b VB) as RB.
      rewrite K in IC. apply in_app_or in IC. destruct IC as [IC|[<-|IC]]; [destruct (N c (or_introl IC) OC)|lia|].
      apply in_app_or in IC. destruct IC as [IC|[<-|IC]]; [|lia|destruct (N c (or_intror IC) OC)].
      apply in_split in IC. destruct IC as (x & y & ->). rewrite <- app_assoc in K. cbn [app] in K. destruct (kids_before f T WF e pre a x c _ K) as (L1 & _).
      rewrite app_comm_cons, app_assoc in K. destruct (kids_before f T WF e _ c y b post K) as (L2 & _). lia. }
    destruct (BYTE (rstart r) ltac:(lia)) as (c1 & I1 & R1). destruct (BYTE (rend r - 1) ltac:(lia)) as (c2 & I2 & R2).
    destruct (SPLIT c1 I1) as (S1 & _); [unfold overlaps; lia|]. destruct (SPLIT c2 I2) as (_ & S2); [unfold overlaps; lia|]. lia.
  Qed.

  Lemma range_to_extract_ok : forall r e, rstart r < rend r -> holds_all f r e -> exists m, range_to_extract f e r = Ok m /\ moved f r e m /\
    rstart m <= rstart r /\ rend r <= rend m /\ rstart (rng f e) <= rstart m /\ rend m <= rend (rng f e) /\
    aligned (f_text f) (rstart m) /\ aligned (f_text f) (rend m).
  Proof.
    intros r e P H. pose proof H as (VE & H1 & H2). unfold range_to_extract. rewrite (ty_v f e VE). cbn [bind]. rewrite (rng_v f e VE). cbn [bind].
    assert (WHOLE : (forall a b, ~ run_selected f r e a b) -> exists m, Ok (rng f e) = Ok m /\ moved f r e m /\
      rstart m <= rstart r /\ rend r <= rend m /\ rstart (rng f e) <= rstart m /\ rend m <= rend (rng f e) /\
      aligned (f_text f) (rstart m) /\ aligned (f_text f) (rend m)).
    { intros N. exists (rng f e). split; [reflexivity|]. split; [right; auto|]. destruct (range_aligned f T WF CT e VE). repeat split; auto. }
    destruct (ty f e =? SEQ_EXPR) eqn:TS.
    2:{ apply Nat.eqb_neq in TS. apply WHOLE. intros a b (S & _). contradiction. }
    apply Nat.eqb_eq in TS. rewrite (kids_v f e VE). cbn [bind]. rewrite (filter_res_pure _ _ (fun n => intersects (rng f n) r)).
    2:{ intros n I. rewrite (rng_v f n (kids_valid f T WF e n I)). reflexivity. }
    cbn [bind]. destruct (filter (fun n => intersects (rng f n) r) (kids f e)) as [|a [|c rest]] eqn:F.
    - apply WHOLE. intros x y R. apply run_filter in R. destruct R as (_ & _ & _ & m & E). rewrite F in E. discriminate E.
    - apply WHOLE. intros x y R. apply run_filter in R. destruct R as (_ & _ & _ & m & E). rewrite F in E. destruct m; discriminate E.
    - set (b := last (c :: rest) c). assert (EB : exists m, c :: rest = m ++ [b]) by (exists (removelast (c :: rest)); apply app_removelast_last; discriminate).
      destruct EB as (m & EB). rewrite EB in F. assert (VA : valid f a /\ valid f b).
      { split; apply (kids_valid f T WF e); [assert (J : In a (a :: m ++ [b])) by (left; reflexivity)|assert (J : In b (a :: m ++ [b])) by (right; apply in_or_app; right; left; reflexivity)]; rewrite <- F in J; apply filter_In in J; tauto. }
      destruct VA as (VA & VB). unfold is_expression. rewrite (ty_v f a VA), (ty_v f b VB). cbn [bind].
      destruct (is_expr (ty f a) && is_expr (ty f b)) eqn:X.
      + apply andb_true_iff in X. destruct X as (XA & XB). assert (R : run_selected f r e a b) by (apply run_filter; split; [exact TS|]; split; [exact XA|]; split; [exact XB|]; exists m; exact F).
        destruct (run_holds r e a b P H R) as (_ & _ & L & L1 & L2 & L3 & L4). rewrite (rng_v f a VA), (rng_v f b VB). cbn [bind].
        pose proof (rng_in f T WF a VA). pose proof (rng_in f T WF b VB).
        rewrite from_to_ok by lia. exists (mkRange (rstart (rng f a)) (rend (rng f b))). split; [reflexivity|]. split; [left; exists a, b; auto|]. cbn [rstart rend].
        destruct (range_aligned f T WF CT a VA). destruct (range_aligned f T WF CT b VB). auto 10.
      + apply WHOLE. intros x y R. apply run_filter in R. destruct R as (_ & XA & XB & m' & E). rewrite F in E. injection E as <- E. apply app_inj_tail in E. destruct E as (_ & <-).
        rewrite XA, XB in X. discriminate X.
  Qed.

  Lemma enclosing_inside : forall n r, valid f n -> enclosing_rule f n r -> inside f n r.
  Proof.
    intros n r V E. induction E as [n X|n p r X P E IH]; [apply in_self; exact V|].
    apply inside_trans with (b := p); [eapply in_up; [apply in_self; exact V|exact P]|]. apply IH. exact (proj1 (par_in f T WF n p V P)).
  Qed.

  (** Replacing the text of [m] and inserting after a node around it. *)
  Lemma replace_and_insert : forall m e rule new add, rstart m < rend m -> holds_all f m e -> inside f e rule -> e <> rule ->
    aligned (f_text f) (rstart m) -> aligned (f_text f) (rend m) ->
    exists fe ops, fe_replace_substring f fe_new m new = Ok fe /\ into_text_edit f (fe_insert_text_after fe rule add) = Ok ops /\
      apply ops (as_text (f_text f)) = Ok (sub 0 (rstart m) (f_text f) ++ new ++ sub (rend m) (rend (rng f rule)) (f_text f) ++ add ++ sub (rend (rng f rule)) (length (f_text f)) (f_text f)).
  Proof.
    intros m e rule new add P HE IR NE A1 A2. pose proof HE as (VE & H1 & H2). pose proof (rng_in f T WF e VE) as RE.
    destruct (covering m P ltac:(lia)) as (c & EC & HC & MC). pose proof HC as (VC & C1 & C2). pose proof (MC e HE) as CE.
    destruct (inside_valid _ _ IR) as (_ & VR). pose proof (inside_trans _ _ _ CE IR) as CR.
    destruct (valid_at f T WF c VC) as (pc & qc & tc & AC & _). destruct (view_at f T WF _ _ _ _ AC) as (_ & _ & _ & RC & _). rewrite RC in C1, C2. cbn [rstart rend] in C1, C2.
    destruct (valid_at f T WF rule VR) as (pr & qr & tr & AR & _). destruct (view_at f T WF _ _ _ _ AR) as (_ & _ & _ & RR & _).
    unfold fe_replace_substring, root. rewrite (range_ok _ _ ST _ _ _ _ (At_root T)). cbn [bind plus]. unfold is_subrange_of. cbn [rstart rend]. rewrite (proj2 WF).
    replace ((0 <=? rstart m) && (rend m <=? length (f_text f))) with true by (symmetry; apply andb_true_intro; split; apply Nat.leb_le; lia). cbn [guard].
    unfold root in EC. rewrite EC. cbn [bind]. rewrite (rng_v f c VC), RC. cbn [bind rstart rend]. destruct (CT _ _ _ _ AC) as (AA & AB).
    rewrite from_to_ok by exact C1. cbn [bind].
    destruct (slice_as_str (f_text f) pc (rstart m) C1 AA A1) as (pre & SP1 & SP). destruct (slice_as_str (f_text f) (rend m) (pc + tlen tc) C2 A2 AB) as (suf & SS1 & SS).
    rewrite SP1. cbn [bind]. rewrite from_to_ok by exact C2. cbn [bind]. rewrite SS1. cbn [bind]. rewrite SP. cbn [bind]. rewrite SS. cbn [bind].
    eexists. set (txt := (sub pc (rstart m) (f_text f) ++ new ++ sub (rend m) (pc + tlen tc) (f_text f)) : bytes).
    destruct (file_edit_ok f T (fe_insert_text_after (fe_replace_with_text fe_new c txt) rule add) WF CT) as (ops & E1 & E2 & _).
    exists ops. split; [reflexivity|]. split; [exact E1|]. rewrite E2. f_equal. unfold edit_result.
    rewrite (edited_ext _ _ _ _ (fun _ => false) (fun j => if c =? j then Some txt else None) (fun j => if rule =? j then Some add else None)); try (intros j; reflexivity).
    apply (below_inside f T WF) in CR. destruct (Below_AtG T rule c CR pr qr tr AR) as (pc' & qc' & tc' & G).
    destruct (At_unique _ _ _ _ _ _ _ _ (AtG_in_At _ _ _ _ _ _ _ _ _ AR G) AC) as (-> & -> & ->).
    assert (NC : c <> rule). { intros ->. apply NE. apply inside_antisym; [exact IR|]. exact CE. }
    etransitivity; [exact (edited_and_inserted (f_text f) txt add c rule T pr qr tr pc qc tc AR G NC (proj2 WF))|]. rewrite RR. cbn [rend]. unfold txt.
    pose proof (AtG_bounds _ _ _ _ _ _ _ _ G) as BD. pose proof (At_within f T WF _ _ _ _ AR) as WR.
    rewrite <- !app_assoc. rewrite (app_assoc (sub 0 pc _)), sub_app by lia. do 2 f_equal. rewrite (app_assoc (sub (rend m) _ _)), sub_app by lia. reflexivity.
  Qed.

  Lemma expr_in_rule : forall e, expression f e -> exists rule, enclosing_rule f e rule /\ In rule (rules f) /\ e <> rule.
  Proof.
    intros e (VE & XE). assert (J : In (ty f e) expressions).
    { unfold is_expr in XE. apply existsb_exists in XE. destruct XE as (x & I & E). apply Nat.eqb_eq in E. rewrite E. cbn in I |- *. tauto. }
    destruct (C53_in_rule f T e (ty f e) WF NF J (conj VE eq_refl)) as (rule & ER & IR). exists rule. split; [exact ER|]. split; [exact IR|].
    intros <-. destruct (rules_in f T WF e IR) as (_ & TY). rewrite TY in J. cbn in J. repeat (destruct J as [J|J]; [discriminate J|]). destruct J.
  Qed.

  Lemma selected_fun : forall r a b, selected f r a -> selected f r b -> a = b.
  Proof. intros r a b (A1 & A2 & A3) (B1 & B2 & B3). apply inside_antisym; auto. Qed.

  Lemma extract_rule_ok : forall r, rstart r <= rend r -> rend r <= length (f_text f) ->
    (exists e m rule ops, extractable f r e /\ moved f r e m /\ enclosing_rule f e rule /\ In rule (rules f) /\
       rstart m <= rstart r /\ rend r <= rend m /\ rend m <= rend (rng f rule) /\
       extract_rule f r false = Ok (Some Available) /\ extract_rule f r true = Ok (Some (Applied ops)) /\
       apply ops (as_text (f_text f)) = Ok (extracted f m rule))
    \/ ((forall e, ~ extractable f r e) /\ extract_rule f r false = Ok None /\ extract_rule f r true = Ok None).
  Proof.
    intros r P L. unfold extract_rule, range_is_empty. destruct (rstart r =? rend r) eqn:Z.
    { apply Nat.eqb_eq in Z. right. split; [|auto]. intros e (X & _). lia. }
    apply Nat.eqb_neq in Z. destruct (selected_ok r ltac:(lia) L) as (c & l & o & E1 & E2 & E3 & H). rewrite E1. cbn [bind]. rewrite E2. cbn [bind]. rewrite E3. cbn [bind].
    destruct o as [e|]; [|right; split; [intros e (_ & X & _); exact (H e X)|auto]].
    pose proof H as ((VE & XE) & HE & _). rewrite (ty_v f e VE). cbn [bind]. destruct (ty f e =? REF_EXPR) eqn:TR.
    { apply Nat.eqb_eq in TR. right. split; [|auto]. intros x (_ & X & Y). rewrite (selected_fun _ _ _ X H) in Y. contradiction. }
    apply Nat.eqb_neq in TR. cbn [negb]. left. destruct (expr_in_rule e (conj VE XE)) as (rule & ER & IR & NR).
    rewrite (enclosing_v f T WF e rule VE ER). cbn [bind unwrap].
    destruct (range_to_extract_ok r e ltac:(lia) HE) as (m & -> & MV & M1 & M2 & M3 & M4 & A1 & A2). cbn [bind].
    pose proof (rng_in f T WF e VE) as RE. pose proof (enclosing_inside e rule VE ER) as IE. destruct (inside_range f T WF _ _ IE) as (_ & RU).
    destruct (slice_as_str (f_text f) (rstart m) (rend m) ltac:(lia) A1 A2) as (s & S1 & S2).
    replace (mkRange (rstart m) (rend m)) with m in S1 by (destruct m; reflexivity). rewrite S1. cbn [bind]. rewrite S2. cbn [bind].
    destruct (replace_and_insert m e rule s_new_rule (s_rule_head ++ sub (rstart m) (rend m) (f_text f) ++ s_rule_tail)) as (fe & ops & F1 & F2 & F3); auto.
    { lia. }
    { split; [exact VE|]. lia. }
    rewrite F1. cbn [bind]. rewrite F2. cbn [bind]. exists e, m, rule, ops. split; [split; [lia|]; split; assumption|]. split; [exact MV|]. split; [exact ER|]. split; [exact IR|].
    split; [exact M1|]. split; [exact M2|]. split; [lia|]. split; [reflexivity|]. split; [reflexivity|]. rewrite F3. f_equal. unfold extracted, s_rule_head, s_rule_tail.
    rewrite <- !app_assoc. reflexivity.
  Qed.

  (** *** The outline *)
  Lemma tsize_kids : forall t, tsize t = S (tsizes (t_children t)).
  Proof. intros [ty n|ty ts]; reflexivity. Qed.

  Lemma root_entries : forall A (g : nat -> list A), g 0 = [] -> (forall n, valid f n -> ~ In n (kids f 0) -> g n = []) -> flat_map g (post T 0) = flat_map g (kids f 0).
  Proof.
    intros A g Z N. destruct (view_at f T WF _ _ _ _ (At_root T)) as (_ & _ & _ & _ & EK). rewrite post_eq, flat_map_app. cbn [flat_map]. rewrite Z, app_nil_r. cbn [app]. rewrite EK.
    assert (G : forall ts j, (forall n, j <= n < j + tsizes ts -> ~ In n (child_ids j ts) -> g n = []) -> flat_map g (posts ts j) = flat_map g (child_ids j ts)).
    { clear. induction ts as [|t ts IH]; intros j H; [reflexivity|]. cbn [posts child_ids flat_map]. rewrite flat_map_app. f_equal.
      - rewrite post_eq, flat_map_app. cbn [flat_map]. rewrite app_nil_r.
        assert (X : forall l, (forall n, In n l -> g n = []) -> flat_map g l = []).
        { induction l as [|x l IHl]; intros Y; [reflexivity|]. cbn [flat_map]. rewrite (Y x (or_introl eq_refl)). apply IHl. intros n I. apply Y. right. exact I. }
        rewrite X; [reflexivity|]. intros n I. apply posts_in in I. assert (LT : S j <= n < j + tsize t) by (rewrite tsize_kids; lia).
        apply H; [rewrite tsizes_cons; lia|]. cbn [child_ids]. intros [E|E]; [lia|]. apply child_ids_ge in E. lia.
      - apply IH. intros n B NI. apply H; [rewrite tsizes_cons; pose proof (tsize_pos t); lia|]. cbn [child_ids]. intros [E|E]; [pose proof (tsize_pos t); lia|contradiction]. }
    apply G. intros n B NI. apply N; [|rewrite EK; exact NI]. destruct (At_total T n) as (p & q & t & A'); [rewrite tsize_kids; lia|].
    eapply (at_valid f T WF); eauto.
  Qed.

  Lemma top_kid : forall n t, In t top_level -> valid f n -> ty f n = t -> In n (kids f 0).
  Proof. intros n t J V E. pose proof (C53_top_level f T n t WF NF J (conj V E)) as I. apply filter_In in I. tauto. Qed.

  Lemma structure_ok : structure f = Ok (outline f).
  Proof.
    unfold structure, root. rewrite (bottom_up_ok nodes T ST _ _ _ _ _ _ _ (At_root T)).
    rewrite (fold_res_pure _ _ _ (fun acc n => acc ++ outline_entry f n)).
    2:{ intros acc n I. apply post_in in I. destruct (At_total T n ltac:(lia)) as (p & q & t & A). pose proof (at_valid f T WF _ _ _ _ A) as V.
        rewrite (ty_v f n V). cbn [bind]. unfold outline_entry. destruct (ty f n =? SYN_RULE).
        - rewrite (rule_name_v f T WF CT n V). cbn [bind]. destruct (name_of f n); [rewrite (rng_v f n V); reflexivity|rewrite app_nil_r; reflexivity].
        - destruct (ty f n =? TOKENIZER_DEF); [rewrite (rng_v f n V); reflexivity|]. destruct (ty f n =? AST_DEF); [rewrite (rng_v f n V); reflexivity|]. rewrite app_nil_r. reflexivity. }
    f_equal. unfold outline. rewrite <- (root_entries _ (outline_entry f)).
    - assert (X : forall l acc, fold_left (fun acc n => acc ++ outline_entry f n) l acc = acc ++ flat_map (outline_entry f) l).
      { induction l as [|x l IH]; intros acc; [cbn; rewrite app_nil_r; reflexivity|]. cbn [fold_left flat_map]. rewrite IH, app_assoc. reflexivity. }
      rewrite X. reflexivity.
    - unfold outline_entry. rewrite (proj1 NF). reflexivity.
    - intros n V NI. unfold outline_entry. destruct (ty f n =? SYN_RULE) eqn:E1; [exfalso; apply NI; apply Nat.eqb_eq in E1; apply (top_kid n SYN_RULE); cbn; auto|].
      destruct (ty f n =? TOKENIZER_DEF) eqn:E2; [exfalso; apply NI; apply Nat.eqb_eq in E2; apply (top_kid n TOKENIZER_DEF); cbn; auto|].
      destruct (ty f n =? AST_DEF) eqn:E3; [exfalso; apply NI; apply Nat.eqb_eq in E3; apply (top_kid n AST_DEF); cbn; auto 6|]. reflexivity.
  Qed.

  (** *** The test under the cursor *)
  Lemma kid_inside : forall t n m, In t (kids f 0) -> In m (kids f 0) -> inside f n t -> inside f n m -> t = m.
  Proof.
    intros t n m I J A B. destruct (kids_in f T WF _ _ I) as (VT & PT). destruct (kids_in f T WF _ _ J) as (VM & PM).
    destruct (chain_ok n (proj1 (inside_valid _ _ A))) as (l & _ & IL & SL). apply IL in A. apply IL in B.
    assert (UP : forall x y, par f x = Some 0 -> par f y = Some 0 -> inside f x y -> x = y).
    { intros x y X Y Z. destruct Z as [V|a p Z' P]; [reflexivity|]. exfalso. clear - X Y Z' P WF ST.
      assert (LE : forall a, inside f x a -> x = a \/ a = 0).
      { intros b W. induction W as [V|b c W IH P']; [left; reflexivity|]. destruct IH as [-> | ->]; [right; congruence|]. exfalso.
        destruct (view_at f T WF _ _ _ _ (At_root T)) as (_ & _ & PR & _). congruence. }
      destruct (view_at f T WF _ _ _ _ (At_root T)) as (_ & _ & PR & _). destruct (LE a Z') as [<- | ->]; [|congruence]. rewrite X in P. injection P as <-. congruence. }
    apply in_split in A. destruct A as (l1 & l2 & E). rewrite E in B. apply in_app_or in B. destruct B as [B|B].
    - apply in_split in B. destruct B as (l3 & l4 & ->). rewrite <- app_assoc in E. cbn [app] in E. symmetry. apply UP; auto. apply (SL l3 m (l4 ++ t :: l2) E). right. apply in_or_app. right. left. reflexivity.
    - apply UP; auto. exact (SL l1 t l2 E m B).
  Qed.

  Lemma test_at_offset_ok : forall o, o <= length (f_text f) -> exists a, test_at_offset f o = Ok a /\ forall i, a = Some i <-> in_test f o i.
  Proof.
    intros o LE. destruct (leaf_result f T WF o LE) as (l & E & I & B). unfold test_at_offset. rewrite E. cbn [bind].
    assert (RB : match right_biased l with Some n => token_right f o n | None => forall n, ~ token_right f o n end).
    { destruct l as [|n|a b]; cbn [right_biased leaves_list] in *.
      - intros n (X & _). apply I in X. destruct X.
      - split; [apply I; left; reflexivity|]. intros m X. apply I in X. destruct X as [<-|[]]. lia.
      - split; [apply I; right; left; reflexivity|]. intros m X. apply I in X. specialize (B a b eq_refl). destruct X as [<-|[<-|[]]]; lia. }
    assert (RF : forall a b, token_right f o a -> token_right f o b -> a = b) by (intros a b (A1 & A2) (B1 & B2); apply A2 in B1; apply B2 in A1; lia).
    destruct (right_biased l) as [n|].
    2:{ exists None. split; [reflexivity|]. intros i. split; [discriminate|]. intros (n & t & X & _). destruct (RB n X). }
    pose proof (proj1 (proj1 RB)) as V. unfold ast_ancestor. destruct (chain_ok n V) as (anc & EA & IA & _). rewrite EA. cbn [bind].
    rewrite (filter_res_pure _ _ (fun m => is_ty TEST_DEF (ty f m))).
    2:{ intros m J. apply IA in J. rewrite (ty_v f m (proj2 (inside_valid _ _ J))). reflexivity. }
    cbn [bind]. unfold is_ty at 1. destruct (filter (fun m => ty f m =? TEST_DEF) anc) as [|test rest] eqn:F; cbn [hd_error].
    - exists None. split; [reflexivity|]. intros i. split; [discriminate|]. intros (n' & t & X & Y & Z). rewrite (RF _ _ X RB) in Y. apply nth_error_In in Z. apply filter_In in Z. destruct Z as (_ & Z).
      assert (J : In t (filter (fun m => ty f m =? TEST_DEF) anc)) by (apply filter_In; split; [apply IA; exact Y|exact Z]). rewrite F in J. destruct J.
    - assert (J : In test (filter (fun m => ty f m =? TEST_DEF) anc)) by (rewrite F; left; reflexivity). apply filter_In in J. destruct J as (J & TY). apply IA in J. apply Nat.eqb_eq in TY.
      assert (V0 : valid f 0) by exact (at_valid f T WF _ _ _ _ (At_root T)).
      unfold root. rewrite (children_is_v f T WF TEST_DEF 0 V0). cbn [bind].
      pose proof (C53_top_level f T test TEST_DEF WF NF ltac:(cbn; auto 8) (conj (proj2 (inside_valid _ _ J)) TY)) as IT.
      destruct (CodegenProofs.position_in test _ IT) as (i & P & N). rewrite P. cbn [bind unwrap]. exists (Some i). split; [reflexivity|]. intros k. split.
      + intros X. injection X as <-. exists n, test. auto.
      + intros (n' & t & X & Y & Z). rewrite (RF _ _ X RB) in Y. assert (ET : t = test).
        { apply (kid_inside t n test); auto; [apply nth_error_In in Z; apply filter_In in Z; tauto|apply filter_In in IT; tauto]. }
        rewrite ET in Z. assert (ND : NoDup (kids_of f TEST_DEF 0)) by (apply NoDup_filter; exact (kids_nodup f T WF 0)).
        f_equal. apply (proj1 (NoDup_nth_error _) ND); [apply nth_error_Some; congruence|congruence].
  Qed.

  (** *** What the actions are about is unique. *)
  Lemma swappable_fun : forall o l r l' r', swappable f o l r -> swappable f o l' r' -> l = l' /\ r = r'.
  Proof.
    intros o l r l' r' (p & BP & b & pre & m1 & m2 & post & PP & _ & K & XL & XR & N) (p' & BP' & b' & pre' & m1' & m2' & post' & PP' & _ & K' & XL' & XR' & N').
    rewrite (bar_fun f o p' p BP' BP) in *. assert (b' = b) by congruence. subst b'.
    rewrite app_comm_cons, app_assoc in K, K'. pose proof (kids_nodup f T WF b) as ND. rewrite K in ND, K'. destruct (split_unique _ _ _ _ p ND K') as (EA & EB).
    set (g := fun c => is_expr (ty f c)) in *.
    assert (NF1 : forall m, (forall x, In x m -> is_expr (ty f x) = false) -> filter g m = []) by (intros m H; apply filter_nil; exact H).
    assert (M : filter g m1 = [] /\ filter g m2 = [] /\ filter g m1' = [] /\ filter g m2' = []).
    { split; [|split; [|split]]; apply NF1; intros x I; [apply N|apply N|apply N'|apply N']; apply in_or_app; auto. }
    destruct M as (M1 & M2 & M3 & M4). split.
    - apply (f_equal (filter g)) in EA. rewrite !filter_app in EA. cbn [filter] in EA. change (is_expr (ty f l)) with (g l) in XL. change (is_expr (ty f l')) with (g l') in XL'. rewrite XL, XL', M1, M3 in EA. apply app_inj_tail in EA. tauto.
    - apply (f_equal (filter g)) in EB. rewrite !filter_app, M2, M4 in EB. cbn [filter app] in EB. change (is_expr (ty f r)) with (g r) in XR. change (is_expr (ty f r')) with (g r') in XR'. rewrite XR, XR' in EB. congruence.
  Qed.

  Lemma run_fun : forall r e a b a' b', run_selected f r e a b -> run_selected f r e a' b' -> a = a' /\ b = b'.
  Proof.
    intros r e a b a' b' X Y. apply run_filter in X. apply run_filter in Y. destruct X as (_ & _ & _ & m & E). destruct Y as (_ & _ & _ & m' & E'). rewrite E in E'.
    injection E' as -> E'. apply app_inj_tail in E'. tauto.
  Qed.

  Lemma moved_fun : forall r e m m', moved f r e m -> moved f r e m' -> m = m'.
  Proof.
    intros r e m m' [(a & b & R & ->)|(N & ->)] [(a' & b' & R' & ->)|(N' & ->)]; auto.
    - destruct (run_fun _ _ _ _ _ _ R R') as (-> & ->). reflexivity.
    - destruct (N' _ _ R).
    - destruct (N _ _ R').
  Qed.

  Lemma enclosing_fun : forall n r r', enclosing_rule f n r -> enclosing_rule f n r' -> r = r'.
  Proof.
    intros n r r' H. revert r'. induction H as [n E|n p r E P H IH]; intros r' H'; inversion H'; subst; try congruence.
    apply IH. match goal with X : par f n = Some ?q, Y : enclosing_rule f ?q r' |- _ => rewrite P in X; injection X as ->; exact Y end.
  Qed.
End Proofs.
