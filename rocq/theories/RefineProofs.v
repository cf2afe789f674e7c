(** The event parser refines the tree semantics. *)
From Coq Require Import List Arith Bool Lia.
From Verif Require Import Base BaseFacts LexModel GrammarModel ParserModel ForestSpec SemSpec.
Import ListNotations.

(** ** Encodings *)

Lemma encs_app : forall F G, encs (F ++ G) = encs F ++ encs G.
Proof. intros. apply flat_map_app. Qed.

Lemma encs_cons : forall t F, encs (t :: F) = enc None t ++ encs F.
Proof. reflexivity. Qed.

Definition own (t : ptree) : nat := match t with PNode _ _ b => S (S (length (encs b))) | _ => 0 end.

(** The events of the trees attached to the left of a node. *)
Definition pre_enc (pre : list ptree) : list event :=
  match pre with [] => [] | x :: rest => enc (Some (own x + length (encs rest))) x ++ encs rest end.

Lemma enc_node : forall fp ty pre body,
  enc fp (PNode ty pre body) = pre_enc pre ++ EvStart ty fp :: encs body ++ [EvEnd].
Proof. intros fp ty [|x rest] body; reflexivity. Qed.

Lemma enc_cached : forall fp k body, enc fp (PCached k body) = EvCached k (length (encs body)) :: encs body.
Proof. reflexivity. Qed.

Lemma set_nth_mid : forall A (l r : list A) x y i, i = length l -> set_nth i y (l ++ x :: r) = l ++ y :: r.
Proof.
  intros A l r x y i ->. rewrite <- (Nat.add_0_r (length l)). rewrite set_nth_app_r. reflexivity.
Qed.

Lemma nth_mid : forall A (l r : list A) x i, i = length l -> nth_error (l ++ x :: r) i = Some x.
Proof. intros A l r x i ->. rewrite nth_error_app2 by lia. rewrite Nat.sub_diag. reflexivity. Qed.

(** ** States relative to a base state *)

Definition rd_of (s : st) : reader := mkRd (s_pred s) (s_ctxs s) (s_args s).

Definition putE (s : st) (evs : list event) (h : regs) : st :=
  mkSt (s_events s ++ (if s_pred s then [] else evs)) (h_repl h) (s_pred s) (s_ctxs s) (s_args s) (h_prev h).

Lemma putE_self : forall s, s = putE s [] (mkRg (s_prev s) (s_repl s)).
Proof. intros []. unfold putE. cbn. destruct s_pred; rewrite app_nil_r; reflexivity. Qed.

Lemma emit_putE : forall s evs h e, emit (putE s evs h) e = putE s (evs ++ [e]) h.
Proof.
  intros s evs h e. unfold emit, putE, set_events. cbn. destruct (s_pred s) eqn:P; [reflexivity|].
  rewrite <- app_assoc. reflexivity.
Qed.

Lemma rollback_putE : forall s evs t h, rollback (putE s (evs ++ t) h) (mark (putE s evs h)) = Ok (putE s evs h).
Proof.
  intros s evs t h. unfold rollback, mark, putE, set_events. cbn. destruct (s_pred s).
  - rewrite Nat.leb_refl. cbn [guard]. rewrite firstn_all. reflexivity.
  - rewrite (proj2 (Nat.leb_le _ _)) by (rewrite !app_length; lia). cbn [guard].
    rewrite (app_assoc (s_events s) evs t). rewrite firstn_app, firstn_all, Nat.sub_diag, firstn_O, app_nil_r. reflexivity.
Qed.

(** ** Refinement of results: when the semantics is defined, the parser does the same *)

Definition rf {A B} (y : res A) (x : res B) (f : A -> B -> Prop) : Prop :=
  match y with
  | Ok a => exists b, x = Ok b /\ f a b
  | OutOfFuel => x = OutOfFuel
  | Panic => True
  end.

Lemma rf_bind : forall A B A' B' (y : res A) (x : res B) f (ky : A -> res A') (kx : B -> res B') g,
  rf y x f -> (forall a b, y = Ok a -> f a b -> rf (ky a) (kx b) g) -> rf (bind y ky) (bind x kx) g.
Proof.
  intros A B A' B' [a| |] x f ky kx g H K; cbn in *; auto.
  - destruct H as (b & -> & F). cbn. eauto.
  - rewrite H. reflexivity.
Qed.

Lemma rf_ok : forall A B (a : A) (b : B) (f : A -> B -> Prop), f a b -> rf (Ok a) (Ok b) f.
Proof. intros. cbn. eauto. Qed.

Lemma rf_same : forall A A' B (y : res A) (ky : A -> res A') (kx : A -> res B) g,
  (forall a, y = Ok a -> rf (ky a) (kx a) g) -> rf (bind y ky) (bind y kx) g.
Proof. intros A A' B [a| |] ky kx g H; cbn; auto. Qed.

Lemma rf_guard : forall A B c (y : res A) (x : res B) f, (c = true -> rf y x f) -> rf (guard c y) x f.
Proof. intros A B [] y x f H; cbn; auto. Qed.

Lemma rf_impl : forall A B (y : res A) (x : res B) (f g : A -> B -> Prop), rf y x f -> (forall a b, f a b -> g a b) -> rf y x g.
Proof. intros A B [a| |] x f g H K; cbn in *; auto. destruct H as (b & -> & F). eauto. Qed.

(** Results of [parse_expr]. *)
Definition fev (r : option (pos * list ptree)) : list event := match r with Some (_, F) => encs F | None => [] end.

Definition RES (s : st) (evs : list event) (a : option (pos * list ptree) * regs) (b : option pos * st) : Prop :=
  b = (option_map fst (fst a), putE s (evs ++ fev (fst a)) (snd a)).

(** Results before the rollback: on failure some events may be left over. *)
Definition PART (s : st) (evs : list event) (a : option (pos * list ptree) * regs) (b : option pos * st) : Prop :=
  match fst a with
  | Some (p, F) => b = (Some p, putE s (evs ++ encs F) (snd a))
  | None => exists t, b = (None, putE s (evs ++ t) (snd a))
  end.

Lemma RES_PART : forall s evs a b, RES s evs a b -> PART s evs a b.
Proof. intros s evs [[[p F]|] h] b ->; [reflexivity|exists []; reflexivity]. Qed.

Lemma PART_some : forall s evs p F h, PART s evs (Some (p, F), h) (Some p, putE s (evs ++ encs F) h).
Proof. reflexivity. Qed.

Lemma PART_none : forall s evs t h, PART s evs (None, h) (None, putE s (evs ++ t) h).
Proof. intros. exists t. reflexivity. Qed.

Lemma PART_none0 : forall s evs h, PART s evs (None, h) (None, putE s evs h).
Proof. intros. exists []. rewrite app_nil_r. reflexivity. Qed.

Section Refine.
  Variable E : env.
  Hypothesis NC : e_cache E = None.

  Lemma one_ref : forall s evs h p,
    rf (one E p) (bump E (putE s evs h) p)
       (fun o b => match o with
                   | None => b = (None, putE s evs h)
                   | Some (t, q) => b = (Some (t, q), putE s (evs ++ [EvToken t 1]) h)
                   end).
  Proof.
    intros s evs h p. unfold one, bump. destruct (p_empty p).
    - apply rf_ok. reflexivity.
    - apply rf_same. intros t _. apply rf_ok. rewrite emit_putE. reflexivity.
  Qed.

  Lemma all_toks_ref : forall n s evs h p,
    rf (all_toks E n p) (bump_all E n (putE s evs h) p) (fun T b => exists q, b = (q, putE s (evs ++ encs T) h)).
  Proof.
    induction n as [|n IH]; intros s evs h p; [reflexivity|].
    cbn [all_toks bump_all]. eapply rf_bind; [apply one_ref|].
    intros [[t q]|] b _ ->.
    - replace (Ok (PTok t 1 :: nil)) with (Ok (PTok t 1 :: nil)) by reflexivity.
      pose proof (IH s (evs ++ [EvToken t 1]) h q) as H.
      destruct (all_toks E n q) as [T| |]; cbn in *; auto.
      destruct H as (b & -> & q' & ->). eexists. split; [reflexivity|]. exists q'. rewrite <- app_assoc. reflexivity.
    - apply rf_ok. exists p. cbn. rewrite app_nil_r. reflexivity.
  Qed.

  Lemma by_text_ref : forall s evs h p text ty,
    rf (by_text E p text ty) (bump_by_text E (putE s evs h) p text ty)
       (fun o b => match o with
                   | None => b = (None, putE s evs h)
                   | Some (q, F) => b = (Some q, putE s (evs ++ encs F) h)
                   end).
  Proof.
    intros s evs h p text ty. unfold by_text, bump_by_text. destruct (p_empty p); [apply rf_ok; reflexivity|].
    apply rf_same. intros [a b] _. apply rf_guard. intros G. rewrite G. cbn [guard].
    destruct (is_prefix _ _); [|apply rf_ok; reflexivity].
    apply rf_same. intros [[n q]|] _; [|apply rf_ok; reflexivity].
    apply rf_same. intros t _. apply rf_ok. rewrite emit_putE. reflexivity.
  Qed.

  (** Attaching an operator node: the opening event of the left operand gets its forward parent. *)
  Lemma attach_ref : forall s evs h rd fresh lhs c t X, rd_of s = rd -> can_attach rd fresh lhs = true ->
    c = length (s_events s ++ evs) + (if fresh then 0 else match lhs with PNode _ pre _ :: _ => length (pre_enc pre) | _ => 0 end) ->
    forward_parent (putE s (evs ++ encs lhs ++ EvStart t None :: X) h) c (length (s_events s ++ evs ++ encs lhs))
    = Ok (putE s (evs ++ pre_enc lhs ++ EvStart t None :: X) h).
  Proof.
    intros s evs h rd fresh lhs c t X <- CA ->. unfold can_attach in CA. apply andb_prop in CA. destruct CA as [NP CA].
    apply negb_true_iff in NP. cbn in NP.
    destruct lhs as [|[ty pre b| |] rest]; try discriminate.
    assert (Off : (if fresh then 0 else length (pre_enc pre)) = length (pre_enc pre)).
    { destruct fresh; auto. destruct pre; [reflexivity|discriminate]. }
    rewrite Off. clear Off CA. unfold forward_parent, putE. cbn [s_events s_pred]. rewrite NP.
    set (B := encs b ++ [EvEnd]).
    assert (EL : encs (PNode ty pre b :: rest) = pre_enc pre ++ EvStart ty None :: B ++ encs rest).
    { rewrite encs_cons, enc_node, <- app_assoc. reflexivity. }
    rewrite EL.
    replace (s_events s ++ evs ++ (pre_enc pre ++ EvStart ty None :: B ++ encs rest) ++ EvStart t None :: X)
      with ((s_events s ++ evs ++ pre_enc pre) ++ EvStart ty None :: (B ++ encs rest) ++ EvStart t None :: X)
      by (rewrite <- !app_assoc; cbn; rewrite <- ?app_assoc; reflexivity).
    unfold index. rewrite nth_mid by (rewrite !app_length; lia). cbn [unwrap bind].
    rewrite usub_le by (rewrite !app_length; cbn [length]; lia). cbn [bind].
    unfold set_events. cbn [s_events s_repl s_pred s_ctxs s_args s_prev].
    rewrite set_nth_mid by (rewrite !app_length; lia). do 2 f_equal. rewrite <- !app_assoc. do 2 f_equal.
    cbn [pre_enc]. rewrite enc_node. rewrite <- !app_assoc. f_equal. cbn [app].
    f_equal. do 2 f_equal. cbn [own]. unfold B. rewrite !app_length. cbn [length]. rewrite !app_length. cbn [length]. lia.
  Qed.

  Lemma graft_enc : forall F t t' fp, graft F t = Some t' -> enc fp t' = pre_enc F ++ enc fp t /\ own t' = own t.
  Proof.
    intros F. fix IH 1. intros [ty pre b|ty n|k b] t' fp H; try discriminate.
    destruct pre as [|x xs]; cbn [graft] in H.
    - injection H as <-. rewrite !enc_node. cbn [pre_enc app]. auto.
    - destruct (graft F x) as [x'|] eqn:G; [|discriminate]. injection H as <-.
      rewrite !enc_node. cbn [pre_enc]. pose proof (proj2 (IH x x' None G)) as O. rewrite O.
      rewrite (proj1 (IH x x' (Some (own x + length (encs xs))) G)).
      rewrite <- !app_assoc. auto.
  Qed.

  (** The first event of a forest whose first tree is a plain node. *)
  Lemma can_fresh : forall rd F, can_attach rd true F = true -> exists ty b rest, F = PNode ty [] b :: rest /\ r_pred rd = false.
  Proof.
    intros rd F H. unfold can_attach in H. apply andb_prop in H. destruct H as [H1 H2]. apply negb_true_iff in H1.
    destruct F as [|[ty [|x xs] b| |] rest]; try discriminate. eauto 6.
  Qed.

  Lemma inject_events : forall F G FG ty b rest, F = PNode ty [] b :: rest -> grafts F G = Some FG ->
    encs FG = EvStart ty (Some (length (encs F))) :: tl (encs F) ++ encs G.
  Proof.
    intros F G FG ty b rest EF H. destruct G as [|t G]; cbn [grafts] in H; [discriminate|].
    destruct (graft F t) as [t'|] eqn:Gr; [|discriminate]. injection H as <-.
    rewrite !encs_cons. rewrite (proj1 (graft_enc _ _ _ None Gr)). rewrite <- app_assoc.
    subst F. cbn [pre_enc]. rewrite encs_cons. rewrite !enc_node. cbn [pre_enc app tl].
    f_equal. do 2 f_equal.
    all: try (rewrite !app_assoc; reflexivity).
    cbn [length]. rewrite !app_length. cbn [own length]. lia.
  Qed.

  Section Rec.
    Variable rec : nat -> pos -> st -> result.
    Variable srec : reader -> nat -> pos -> regs -> outcome.
    Variable fuel : nat.
    Hypothesis R : forall s evs h e p, rf (srec (rd_of s) e p h) (rec e p (putE s evs h)) (RES s evs).

    (** Using the refinement of a recursive call, with continuation. *)
    Lemma R_bind : forall s evs h e p B (ky : option (pos * list ptree) * regs -> res B) C (kx : option pos * st -> res C) g,
      (forall r h1, srec (rd_of s) e p h = Ok (r, h1) ->
         rf (ky (r, h1)) (kx (option_map fst r, putE s (evs ++ fev r) h1)) g) ->
      rf (bind (srec (rd_of s) e p h) ky) (bind (rec e p (putE s evs h)) kx) g.
    Proof.
      intros s evs h e p B ky C kx g K. eapply rf_bind; [apply R|]. intros [r h1] b Q ->. cbn [fst snd]. apply K. auto.
    Qed.

    Lemma pred_ref : forall s evs h e p,
      rf (srec (as_pred (rd_of s)) e p h) (parse_pred rec e p (putE s evs h))
         (fun a b => b = (option_map fst (fst a), putE s evs (snd a))).
    Proof.
      intros s evs h e p. unfold parse_pred.
      set (s1 := set_pred (putE s evs h) true).
      assert (Q : s1 = putE s1 [] h) by (unfold s1, putE, set_pred; cbn; rewrite app_nil_r; reflexivity).
      rewrite Q. replace (as_pred (rd_of s)) with (rd_of s1) by reflexivity.
      pose proof (R s1 [] h e p) as H. destruct (srec (rd_of s1) e p h) as [[r h1]| |]; cbn in *; auto.
      - destruct H as (b & -> & ->). cbn. eexists. split; [reflexivity|]. cbn. f_equal.
        unfold putE, set_pred, s1. cbn. rewrite app_nil_r. reflexivity.
      - rewrite H. reflexivity.
    Qed.

    Lemma pred_bind : forall s evs h e p B (ky : option (pos * list ptree) * regs -> res B) C (kx : option pos * st -> res C) g,
      (forall r h1, srec (as_pred (rd_of s)) e p h = Ok (r, h1) ->
         rf (ky (r, h1)) (kx (option_map fst r, putE s evs h1)) g) ->
      rf (bind (srec (as_pred (rd_of s)) e p h) ky) (bind (parse_pred rec e p (putE s evs h)) kx) g.
    Proof.
      intros s evs h e p B ky C kx g K. eapply rf_bind; [apply pred_ref|]. intros [r h1] b Q ->. cbn [fst snd]. apply K. auto.
    Qed.

    Lemma start_bind : forall s evs h ty B (ky : nat -> res B) C (kx : st -> res C) g,
      (forall t, type_of E ty = Ok t -> rf (ky t) (kx (putE s (evs ++ [EvStart t None]) h)) g) ->
      rf (bind (type_of E ty) ky) (bind (start E (putE s evs h) ty) kx) g.
    Proof.
      intros s evs h ty B ky C kx g K. unfold start. destruct (type_of E ty) as [t| |] eqn:T; cbn; auto.
      rewrite emit_putE. auto.
    Qed.

    Lemma pub_ref : forall s evs h ty body rp p,
      rf (sem_pub E srec (rd_of s) ty body rp p h) (parse_pub E rec ty body rp p (putE s evs h)) (PART s evs).
    Proof.
      intros s evs h ty body rp p. unfold sem_pub, parse_pub.
      set (h0 := if rp then mkRg (h_prev h) None else h).
      replace (if rp then set_repl (putE s evs h) None else putE s evs h) with (putE s evs h0)
        by (unfold h0; destruct rp; reflexivity).
      cbv zeta. apply start_bind. intros t T. apply R_bind. intros [[p' F]|] h1 Q; cbn [option_map fst fev];
        [|apply rf_ok; rewrite <- app_assoc; apply PART_none].
      assert (FIN : forall h' t0, set_prev (finish (putE s ((evs ++ [EvStart t0 None]) ++ encs F) h')) (Some t)
                    = putE s (evs ++ encs [PNode t0 [] F]) (mkRg (Some t) (h_repl h'))).
      { intros h' t0. unfold finish. rewrite emit_putE. unfold set_prev, putE. cbn [s_events s_repl s_pred s_ctxs s_args s_prev h_repl h_prev].
        f_equal. f_equal. destruct (s_pred s); auto. cbn. rewrite app_nil_r, <- !app_assoc. reflexivity. }
      destruct rp; [|rewrite T; cbn [bind]; rewrite FIN; apply rf_ok; reflexivity].
      change (s_repl (putE s ((evs ++ [EvStart t None]) ++ encs F) h1)) with (h_repl h1).
      destruct (h_repl h1) as [rty|] eqn:HR; [|rewrite T; cbn [bind]; rewrite FIN; apply rf_ok; cbn; reflexivity].
      change (r_pred (rd_of s)) with (s_pred s).
      destruct (s_pred s) eqn:SP; cbn [negb guard]; [exact I|].
      unfold replace. destruct (type_of E rty) as [t'| |] eqn:T'; cbn [bind]; try exact I; try reflexivity.
      change (set_repl (putE s ((evs ++ [EvStart t None]) ++ encs F) h1) None)
        with (putE s ((evs ++ [EvStart t None]) ++ encs F) (mkRg (h_prev h1) None)).
      change (mark (putE s evs h0)) with (length (s_events (putE s evs h0))).
      assert (EV : forall evs' h', s_events (putE s evs' h') = s_events s ++ evs') by (intros; unfold putE; cbn; rewrite SP; reflexivity).
      rewrite !EV.
      replace (s_events s ++ (evs ++ [EvStart t None]) ++ encs F)
        with ((s_events s ++ evs) ++ EvStart t None :: encs F)
        by (rewrite <- !app_assoc; reflexivity).
      unfold index. rewrite nth_mid by reflexivity. cbn [unwrap bind].
      rewrite set_nth_mid by reflexivity.
      assert (Z : set_events (putE s ((evs ++ [EvStart t None]) ++ encs F) (mkRg (h_prev h1) None))
                   ((s_events s ++ evs) ++ EvStart t' None :: encs F)
                  = putE s ((evs ++ [EvStart t' None]) ++ encs F) (mkRg (h_prev h1) None)).
      { unfold set_events, putE. cbn. rewrite SP. f_equal. rewrite <- !app_assoc. reflexivity. }
      rewrite Z, T. cbn [bind]. rewrite FIN. apply rf_ok. reflexivity.
    Qed.

    Lemma or_ref : forall opts s evs h p,
      rf (sem_or srec (rd_of s) opts p h) (parse_or rec opts p (putE s evs h)) (RES s evs).
    Proof.
      induction opts as [|o opts IH]; intros s evs h p; cbn [sem_or parse_or].
      - apply rf_ok. unfold RES. cbn. rewrite app_nil_r. reflexivity.
      - apply R_bind. intros [[p' F]|] h1 Q; cbn [option_map fst fev].
        + apply rf_ok. reflexivity.
        + rewrite app_nil_r. apply IH.
    Qed.

    Lemma parts_ref : forall parts s evs h p c,
      rf (sem_parts srec (rd_of s) parts p h) (and_parts rec parts c p (putE s evs h))
         (fun a b => let '(n, q, F, h1) := a in b = (c + n, q, putE s (evs ++ encs F) h1)).
    Proof.
      induction parts as [|a parts IH]; intros s evs h p c; cbn [sem_parts and_parts].
      - apply rf_ok. rewrite Nat.add_0_r, app_nil_r. reflexivity.
      - apply R_bind. intros [[p' F]|] h1 Q; cbn [option_map fst fev].
        + pose proof (IH s (evs ++ encs F) h1 p' (S c)) as H.
          destruct (sem_parts srec (rd_of s) parts p' h1) as [[[[n q] G] h2]| |]; cbn in *; auto.
          destruct H as (b & -> & ->). eexists. split; [reflexivity|].
          rewrite encs_app, app_assoc. f_equal. f_equal. lia.
        + apply rf_ok. rewrite Nat.add_0_r. reflexivity.
    Qed.

    Lemma and_ref : forall s evs h parts commit p,
      rf (sem_and srec (rd_of s) parts commit p h) (parse_and rec parts commit p (putE s evs h)) (PART s evs).
    Proof.
      intros. unfold sem_and, parse_and. eapply rf_bind; [apply parts_ref|]. intros [[[n q] F] h1] b _ ->. cbn [plus].
      destruct (n <? _); [apply rf_ok; apply PART_none|].
      destruct (n <? _); apply rf_ok; unfold PART; cbn [fst snd]; [|reflexivity].
      f_equal. unfold finish, start_error. rewrite !emit_putE. f_equal. rewrite encs_app, <- !app_assoc. reflexivity.
    Qed.

    Lemma layer_ref : forall s evs h l e p,
      rf (sem_layer E srec (rd_of s) l e p h) (parse_layer E rec l e p (putE s evs h)) (PART s evs).
    Proof.
      intros. unfold sem_layer, parse_layer. apply pred_bind. intros [[rest F0]|] h1 Q; cbn [option_map fst];
        [|apply rf_ok; apply PART_none0].
      apply R_bind. intros r2 h2 Q2.
      set (layer := mkPos (p_cur p) (p_cur rest)).
      assert (X : exists lf F, (match r2 with Some x => x | None => (layer, []) end) = (lf, F)
                  /\ match option_map fst r2 with Some q => q | None => layer end = lf /\ fev r2 = encs F).
      { destruct r2 as [[lf F]|]; cbn; eauto 6. }
      destruct X as (lf & F & -> & -> & ->).
      destruct (p_empty lf); [apply rf_ok; reflexivity|].
      unfold start_error. rewrite emit_putE.
      eapply rf_bind; [apply all_toks_ref|]. intros T b _ (q & ->). apply rf_ok. unfold PART. cbn [fst snd].
      f_equal. unfold finish. rewrite emit_putE. f_equal. rewrite encs_app, <- !app_assoc. cbn. rewrite app_nil_r. reflexivity.
    Qed.

    Lemma rep_ref : forall n s evs h e p,
      rf (sem_rep srec n (rd_of s) e p h) (rep_loop rec n e p (putE s evs h)) (PART s evs).
    Proof.
      induction n as [|n IH]; intros s evs h e p; [reflexivity|]. cbn [sem_rep rep_loop].
      apply R_bind. intros [[p' F]|] h1 Q; cbn [option_map fst fev].
      - pose proof (IH s (evs ++ encs F) h1 e p') as H.
        destruct (sem_rep srec n (rd_of s) e p' h1) as [[[[q G]|] h2]| |]; cbn in *; auto.
        + destruct H as (b & -> & H). eexists. split; [reflexivity|]. unfold PART in *. cbn in *. rewrite H. f_equal.
          rewrite encs_app, <- !app_assoc. reflexivity.
        + destruct H as (b & -> & t & ->). eexists. split; [reflexivity|]. rewrite <- app_assoc. apply PART_none.
      - apply rf_ok. reflexivity.
    Qed.

    (** The events for the tokens skipped so far, before the ERROR node is closed. *)
    Definition skip_ev (T : list ptree) : list event := match T with [] => [] | _ => EvStart ERROR None :: encs T end.

    Lemma reopen_putE : forall s evs h, reopen (putE s (evs ++ [EvEnd]) h) = Ok (putE s evs h).
    Proof.
      intros s evs h. unfold reopen, putE. cbn [s_pred s_events]. destruct (s_pred s); [reflexivity|].
      rewrite app_assoc, rev_app_distr. cbn [rev app]. unfold set_events. cbn. rewrite rev_involutive. reflexivity.
    Qed.

    Lemma skip_ref : forall n s evs h first body T p, Forall (fun t => exists ty, t = PTok ty 1) T ->
      rf (sem_skip E srec n (rd_of s) first body T p h)
         (skip_loop E rec n first body (match T with [] => false | _ => true end) p (putE s (evs ++ skip_ev T) h))
         (PART s evs).
    Proof.
      induction n as [|n IH]; intros s evs h first body T p FT; [reflexivity|]. cbn [sem_skip skip_loop].
      set (b := match T with [] => false | _ => true end).
      set (evs0 := evs ++ skip_ev T ++ (if b then [EvEnd] else [])).
      replace (if b then finish (putE s (evs ++ skip_ev T) h) else putE s (evs ++ skip_ev T) h) with (putE s evs0 h)
        by (unfold evs0, finish; destruct b; [rewrite emit_putE, app_assoc; reflexivity|rewrite app_nil_r; reflexivity]).
      apply pred_bind. intros r h1 Q.
      assert (K : forall r2 h2,
        rf (match r2 with
            | Some (p', F) => ok p' ((match T with [] => [] | _ => [PNode ERROR [] T] end) ++ F) h2
            | None =>
                o <- one E p ;;
                match o with
                | None => no h2
                | Some (t, p') => sem_skip E srec n (rd_of s) first body (T ++ [PTok t 1]) p' h2
                end
            end)
           (match option_map fst r2 with
            | Some p' => Ok (Some p', putE s (evs0 ++ fev r2) h2)
            | None =>
                s3 <- (if b then reopen (putE s (evs0 ++ fev r2) h2) else Ok (start_error (putE s (evs0 ++ fev r2) h2))) ;;
                '(bb, s4) <- bump E s3 p ;;
                match bb with
                | None => Ok (None, s4)
                | Some (_, p') => skip_loop E rec n first body true p' s4
                end
            end) (PART s evs)).
      { intros [[p' F]|] h2; cbn [option_map fst fev].
        - apply rf_ok. unfold PART. cbn [fst snd]. do 2 f_equal. unfold evs0. rewrite encs_app, <- !app_assoc. f_equal.
          rewrite !app_assoc. f_equal.
          destruct T as [|t T]; unfold b, skip_ev; cbn; rewrite ?app_nil_r; reflexivity.
        - rewrite app_nil_r.
          assert (X : (if b then reopen (putE s evs0 h2) else Ok (start_error (putE s evs0 h2)))
                      = Ok (putE s (evs ++ EvStart ERROR None :: encs T) h2)).
          { unfold evs0, b, skip_ev. destruct T as [|t T].
            - unfold start_error. rewrite emit_putE, !app_nil_r. reflexivity.
            - rewrite app_assoc, reopen_putE. reflexivity. }
          rewrite X. cbn [bind]. eapply rf_bind; [apply one_ref|]. intros [[t q]|] bb _ ->.
          + pose proof (IH s evs h2 first body (T ++ [PTok t 1]) q) as H.
            replace (match T ++ [PTok t 1] with [] => false | _ => true end) with true in H by (destruct T; reflexivity).
            replace (evs ++ skip_ev (T ++ [PTok t 1])) with ((evs ++ EvStart ERROR None :: encs T) ++ [EvToken t 1]) in H.
            2:{ rewrite <- app_assoc. f_equal. unfold skip_ev. rewrite encs_app. destruct T; reflexivity. }
            apply H. apply Forall_app. split; auto. repeat constructor. eauto.
          + apply rf_ok. apply PART_none. }
      destruct r as [[p0 F0]|]; cbn [option_map fst].
      - apply R_bind. intros r2 h2 Q2. apply K.
      - cbn [bind no]. pose proof (K None h1) as K0. cbn [fev option_map] in K0. rewrite app_nil_r in K0. exact K0.
    Qed.

    Lemma inject_ref : forall s evs h a b p,
      rf (sem_inject srec (rd_of s) a b p h) (parse_inject rec a b p (putE s evs h)) (PART s evs).
    Proof.
      intros. unfold sem_inject, parse_inject. cbv zeta. apply R_bind. intros [[after F]|] h1 Q; cbn [option_map fst fev];
        [|apply rf_ok; apply PART_none].
      apply R_bind. intros [[q G]|] h2 Q2; cbn [option_map fst fev]; [|apply rf_ok; rewrite <- app_assoc; apply PART_none].
      destruct (pos_eqb after p).
      - apply rf_ok. unfold PART. cbn [fst snd]. rewrite encs_app, <- !app_assoc. reflexivity.
      - apply rf_guard. intros CA. destruct (can_fresh _ _ CA) as (ty & bb & rest & EF & NP). cbn in NP.
        destruct (grafts F G) as [FG|] eqn:Gr; cbn [unwrap bind]; [|exact I].
        pose proof (inject_events F G FG ty bb rest EF Gr) as EV.
        assert (EF2 : encs F = EvStart ty None :: tl (encs F)) by (rewrite EF; rewrite encs_cons, enc_node; reflexivity).
        unfold forward_parent, mark, putE. cbn [s_events s_pred]. rewrite NP.
        rewrite <- !app_assoc. rewrite EF2 at 1. rewrite (app_assoc (s_events s) evs).
        cbn [app]. unfold index. rewrite nth_mid by reflexivity. cbn [unwrap bind].
        rewrite usub_le by (rewrite !app_length; lia). cbn [bind].
        unfold set_events. cbn [s_events s_repl s_pred s_ctxs s_args s_prev].
        apply rf_ok. unfold PART. cbn [fst snd]. f_equal. unfold putE. rewrite NP. f_equal. rewrite EF2 at 2. cbn [app].
        rewrite (app_assoc (s_events s) evs (EvStart ty None :: _)).
        rewrite set_nth_mid by reflexivity. rewrite EV, <- app_assoc. do 5 f_equal. rewrite !app_length. lia.
    Qed.

    Lemma cached_ref : forall s evs h b p,
      rf ('(r, h1) <- srec (rd_of s) b p h ;; match r with None => no h1 | Some (q, F) => ok q [PCached b F] h1 end)
         (parse_cached E rec b p (putE s evs h)) (PART s evs).
    Proof.
      intros. unfold parse_cached. cbv zeta. rewrite emit_putE. unfold get_from_cache. rewrite NC. cbn [bind].
      apply R_bind. intros [[q F]|] h1 Q; cbn [option_map fst fev]; [|apply rf_ok; rewrite <- app_assoc; apply PART_none].
      unfold finish_cached, putE, mark. cbn [s_pred s_events]. destruct (s_pred s) eqn:NP.
      - apply rf_ok. unfold PART, putE. cbn. rewrite NP. reflexivity.
      - rewrite <- !app_assoc. cbn [app]. rewrite (app_assoc (s_events s) evs). rewrite usub_le by (rewrite !app_length; cbn; lia).
        cbn [bind]. unfold index. rewrite nth_mid by reflexivity. cbn [unwrap bind]. rewrite set_nth_mid by reflexivity.
        apply rf_ok. unfold PART, putE, set_events. cbn [fst snd s_events s_repl s_pred s_ctxs s_args s_prev]. rewrite NP.
        do 2 f_equal. rewrite <- !app_assoc. do 2 f_equal. cbn [encs flat_map]. rewrite app_nil_r. fold (encs [PCached b F]).
        rewrite enc_cached. do 2 f_equal. rewrite !app_length. cbn. lia.
    Qed.

    Section Pratt.
      Variable go : nat -> pos -> st -> result.
      Variable sgo : nat -> pos -> regs -> outcome.
      Variable s : st.
      Hypothesis G : forall evs h m p, rf (sgo m p h) (go m p (putE s evs h)) (RES s evs).

      Lemma G_bind : forall evs h m p B (ky : option (pos * list ptree) * regs -> res B) C (kx : option pos * st -> res C) g,
        (forall r h1, sgo m p h = Ok (r, h1) ->
           rf (ky (r, h1)) (kx (option_map fst r, putE s (evs ++ fev r) h1)) g) ->
        rf (bind (sgo m p h) ky) (bind (go m p (putE s evs h)) kx) g.
      Proof.
        intros evs h m p B ky C kx g K. eapply rf_bind; [apply G|]. intros [r h1] b Q ->. cbn [fst snd]. apply K. auto.
      Qed.

      (** Where the opening event of the left operand is. *)
      Definition lhs_at (evs : list event) (fresh : bool) (lhs : list ptree) : nat :=
        if s_pred s then length (s_events s)
        else length (s_events s ++ evs) + (if fresh then 0 else match lhs with PNode _ pre _ :: _ => length (pre_enc pre) | _ => 0 end).

      Lemma infixes_ref : forall l evs h fresh lhs p,
        rf (sem_infixes E srec sgo (rd_of s) l fresh lhs p h)
           (try_infixes E rec go l (lhs_at evs fresh lhs) p (putE s (evs ++ encs lhs) h))
           (fun a b => match fst a with
                       | Some (q, L) => b = (Some (q, lhs_at evs false L), putE s (evs ++ encs L) (snd a))
                       | None => b = (None, putE s (evs ++ encs lhs) (snd a))
                       end).
      Proof.
        induction l as [|ix l IH]; intros evs h fresh lhs p; cbn [sem_infixes try_infixes].
        - apply rf_ok. reflexivity.
        - cbv zeta. apply start_bind. intros t T. apply R_bind. intros [[p' F]|] h1 Q; cbn [option_map fst fev].
          + apply rf_guard. intros CA. pose proof CA as CA'. unfold can_attach in CA'. apply andb_prop in CA'.
            destruct CA' as [NP _]. apply negb_true_iff in NP. cbn in NP.
            set (X := encs F).
            replace ((evs ++ encs lhs) ++ [EvStart t None] ++ X) with (evs ++ encs lhs ++ EvStart t None :: X)
              by (rewrite <- !app_assoc; reflexivity).
            replace (((evs ++ encs lhs) ++ [EvStart t None]) ++ X) with (evs ++ encs lhs ++ EvStart t None :: X)
              by (rewrite <- !app_assoc; reflexivity).
            replace (mark (putE s (evs ++ encs lhs) h)) with (length (s_events s ++ evs ++ encs lhs))
              by (unfold mark, putE; cbn; rewrite NP; reflexivity).
            rewrite (attach_ref s evs h1 (rd_of s) fresh lhs _ t X); [|reflexivity|exact CA|unfold lhs_at; rewrite NP; reflexivity].
            cbn [bind].
            assert (K : forall q GG h2,
              rf (ok q [PNode t lhs (F ++ GG)] (mkRg (Some t) (h_repl h2)))
                 (t0 <- type_of E (ix_ty ix) ;;
                  Ok (Some (q, length (s_events s ++ evs ++ encs lhs)),
                      finish (set_prev (putE s (evs ++ pre_enc lhs ++ EvStart t None :: X ++ encs GG) h2) (Some t0))))
                 (fun a b => match fst a with
                       | Some (q, L) => b = (Some (q, lhs_at evs false L), putE s (evs ++ encs L) (snd a))
                       | None => b = (None, putE s (evs ++ encs lhs) (snd a))
                       end)).
            { intros q GG h2. rewrite T. cbn [bind]. apply rf_ok. cbn [fst snd]. f_equal.
              - do 2 f_equal. unfold lhs_at. rewrite NP. rewrite !app_length. 
                assert (length (pre_enc lhs) = length (encs lhs)); [|lia].
                destruct lhs as [|x lhs]; [reflexivity|]. cbn [pre_enc]. rewrite encs_cons, !app_length. f_equal.
                destruct x; try reflexivity. rewrite !enc_node, !app_length. reflexivity.
              - unfold finish. replace (set_prev (putE s (evs ++ pre_enc lhs ++ EvStart t None :: X ++ encs GG) h2) (Some t))
                  with (putE s (evs ++ pre_enc lhs ++ EvStart t None :: X ++ encs GG) (mkRg (Some t) (h_repl h2))) by reflexivity.
                rewrite emit_putE. f_equal. cbn [encs flat_map].
                rewrite app_nil_r. rewrite enc_node, encs_app. unfold X. rewrite <- !app_assoc. cbn [app]. rewrite <- !app_assoc. reflexivity. }
            destruct (ix_rhs ix).
            * assert (G2 := G (evs ++ pre_enc lhs ++ EvStart t None :: X) h1 (S (ix_prio ix)) p').
              destruct (sgo (S (ix_prio ix)) p' h1) as [[[[q GG]|] h2]| |]; cbn [bind rf] in *; auto.
              -- destruct G2 as (b & -> & ->). cbn [bind option_map fst snd fev]. specialize (K q GG h2).
                 replace ((evs ++ pre_enc lhs ++ EvStart t None :: X) ++ encs GG)
                   with (evs ++ pre_enc lhs ++ EvStart t None :: X ++ encs GG) by (rewrite <- !app_assoc; reflexivity).
                 exact K.
              -- destruct G2 as (b & -> & ->). cbn [bind option_map fst snd fev]. specialize (K p' [PNode ERROR [] []] h2).
                 unfold finish at 2, start_error. rewrite !emit_putE.
                                  replace ((((evs ++ pre_enc lhs ++ EvStart t None :: X) ++ []) ++ [EvStart ERROR None]) ++ [EvEnd])
                   with (evs ++ pre_enc lhs ++ EvStart t None :: X ++ encs [PNode ERROR [] []])
                   by (rewrite app_nil_r, <- !app_assoc; cbn [app]; rewrite <- ?app_assoc; reflexivity).
                 exact K.
              -- rewrite G2. reflexivity.
            * cbn [bind]. specialize (K p' [] h1). cbn [encs flat_map] in K. rewrite !app_nil_r in K. rewrite app_nil_r. exact K.
          + rewrite app_nil_r.
            replace (mark (putE s (evs ++ encs lhs) h)) with (mark (putE s (evs ++ encs lhs) h1)) by reflexivity.
            rewrite rollback_putE. cbn [bind]. apply IH.
      Qed.

      Lemma loop_ref : forall n l evs h fresh lhs p,
        rf (sem_loop E srec sgo n (rd_of s) l fresh lhs p h)
           (pratt_loop E rec go n l (lhs_at evs fresh lhs) p (putE s (evs ++ encs lhs) h)) (RES s evs).
      Proof.
        induction n as [|n IH]; intros l evs h fresh lhs p; [reflexivity|]. cbn [sem_loop pratt_loop].
        eapply rf_bind; [apply infixes_ref|]. intros [[[q L]|] h1] b _ ->; cbn [snd].
        - apply IH.
        - apply rf_ok. reflexivity.
      Qed.

      Lemma prefixes_ref : forall l evs h p,
        rf (sem_prefixes E srec sgo (rd_of s) l p h) (try_prefixes E rec go l p (putE s evs h)) (RES s evs).
      Proof.
        induction l as [|px l IH]; intros evs h p; cbn [sem_prefixes try_prefixes].
        - apply rf_ok. unfold RES. cbn. rewrite app_nil_r. reflexivity.
        - cbv zeta. apply start_bind. intros t T. apply R_bind. intros r h1 Q.
          assert (K : forall (r2 : option (pos * list ptree)) h2 evs',
            match r2 with Some (q, FG) => evs' = evs ++ EvStart t None :: encs FG | None => exists x, evs' = evs ++ x end ->
            rf (match r2 with
                | Some (q, FG) => ok q [PNode t [] FG] (mkRg (Some t) (h_repl h2))
                | None => sem_prefixes E srec sgo (rd_of s) l p h2
                end)
               (match option_map fst r2 with
                | Some q => t0 <- type_of E (px_ty px) ;; Ok (Some q, finish (set_prev (putE s evs' h2) (Some t0)))
                | None => s4 <- rollback (putE s evs' h2) (mark (putE s evs h)) ;; try_prefixes E rec go l p s4
                end) (RES s evs)).
          { intros [[q FG]|] h2 evs' HE; cbn [option_map fst].
            - subst evs'. rewrite T. cbn [bind]. apply rf_ok. unfold RES. cbn [fst snd option_map fev]. f_equal.
              unfold finish.
              replace (set_prev (putE s (evs ++ EvStart t None :: encs FG) h2) (Some t))
                with (putE s (evs ++ EvStart t None :: encs FG) (mkRg (Some t) (h_repl h2))) by reflexivity.
              rewrite emit_putE. f_equal. cbn [encs flat_map]. rewrite app_nil_r, enc_node. cbn [pre_enc app].
              rewrite <- !app_assoc. reflexivity.
            - destruct HE as (x & ->). change (mark (putE s evs h)) with (mark (putE s evs h2)).
              rewrite rollback_putE. cbn [bind]. apply IH. }
          destruct r as [[p' F]|]; cbn [option_map fst fev].
          + assert (G2 := G ((evs ++ [EvStart t None]) ++ encs F) h1 (px_prio px) p').
            destruct (sgo (px_prio px) p' h1) as [[[[q GG]|] h2]| |]; cbn [bind rf] in *; auto.
            * destruct G2 as (b & -> & ->). cbn [bind fst snd option_map fev ok].
              apply (K (Some (q, F ++ GG)) h2). rewrite encs_app, <- !app_assoc. reflexivity.
            * destruct G2 as (b & -> & ->). cbn [bind fst snd option_map fev no].
              apply (K None h2). eexists. rewrite <- !app_assoc. reflexivity.
            * rewrite G2. reflexivity.
          + cbn [bind no]. apply (K None h1). eexists. rewrite <- !app_assoc. reflexivity.
      Qed.

      Lemma operand_ref : forall t evs h p,
        rf (sem_operand E srec sgo (rd_of s) t p h) (pratt_prefix E rec go t p (putE s evs h)) (RES s evs).
      Proof.
        intros t evs h p. unfold sem_operand, pratt_prefix. eapply rf_bind; [apply or_ref|].
        intros [[[q F]|] h1] b _ ->; cbn [fst snd option_map fev].
        - apply rf_ok. reflexivity.
        - rewrite app_nil_r. apply prefixes_ref.
      Qed.
    End Pratt.

    Lemma go_ref : forall n t s evs h m p,
      rf (sem_go E srec fuel n (rd_of s) t m p h) (pratt_go E rec fuel n t m p (putE s evs h)) (RES s evs).
    Proof.
      induction n as [|n IH]; intros t s evs h m p; [reflexivity|]. cbn [sem_go pratt_go]. cbv zeta.
      eapply rf_bind; [apply operand_ref; intros; apply IH|].
      intros [[[q F]|] h1] b _ ->; cbn [fst snd option_map fev].
      - replace (mark (putE s evs h)) with (lhs_at s evs true F).
        + apply loop_ref. intros. apply IH.
        + unfold lhs_at, mark, putE. cbn. destruct (s_pred s); [rewrite app_nil_r; reflexivity|lia].
      - apply rf_ok. reflexivity.
    Qed.

    Lemma enter_ref : forall s evs h c e v p,
      rf (_ <- index (s_ctxs s) c ;; srec (mkRd (s_pred s) (set_nth c v (s_ctxs s)) (s_args s)) e p h)
         (parse_enter rec c e v p (putE s evs h)) (RES s evs).
    Proof.
      intros. unfold parse_enter. cbn [putE s_ctxs]. destruct (index (s_ctxs s) c) as [old| |] eqn:IX; cbn [bind]; try exact I; try reflexivity.
      set (s1 := set_ctxs (putE s evs h) (set_nth c v (s_ctxs s))).
      assert (Q : s1 = putE s1 [] h).
      { unfold s1, putE, set_ctxs. cbn. destruct (s_pred s); rewrite ?app_nil_r; reflexivity. }
      fold (putE s evs h). fold s1. rewrite Q. change (mkRd (s_pred s) (set_nth c v (s_ctxs s)) (s_args s)) with (rd_of s1).
      pose proof (R s1 [] h e p) as H. destruct (srec (rd_of s1) e p h) as [[r h1]| |]; cbn [rf] in *; auto.
      - destruct H as (b & -> & ->). cbn [bind fst snd].
        pose proof IX as IX'. apply index_ok in IX'. pose proof (proj1 (nth_error_Some (s_ctxs s) c)) as LT. rewrite IX' in LT.
        replace (s_ctxs (putE s1 ([] ++ fev r) h1)) with (set_nth c v (s_ctxs s)) by reflexivity.
        unfold index at 1. rewrite nth_error_set_nth_eq by (apply LT; discriminate). cbn [unwrap bind].
        eexists. split; [reflexivity|]. unfold RES. cbn [fst snd]. f_equal. unfold set_ctxs, putE, s1. cbn.
        f_equal; [destruct (s_pred s); rewrite ?app_nil_r, <- ?app_assoc; reflexivity|].
        clear -IX'. revert c IX'. induction (s_ctxs s) as [|x l IH]; intros [|c] H; cbn in *; try discriminate;
          [congruence|f_equal; auto].
      - rewrite H. reflexivity.
    Qed.

    Lemma call_ref : forall s evs h b l p,
      rf (a <- bind_args E l (s_args s) ;; srec (mkRd (s_pred s) (s_ctxs s) a) b p h)
         (parse_call E rec b l p (putE s evs h)) (RES s evs).
    Proof.
      intros. unfold parse_call. cbn [putE s_args]. destruct (bind_args E l (s_args s)) as [a| |]; cbn [bind]; try exact I; try reflexivity.
      fold (putE s evs h). set (s1 := set_args (putE s evs h) a).
      assert (Q : s1 = putE s1 [] h).
      { unfold s1, putE, set_args. cbn. destruct (s_pred s); rewrite ?app_nil_r; reflexivity. }
      rewrite Q. change (mkRd (s_pred s) (s_ctxs s) a) with (rd_of s1).
      pose proof (R s1 [] h b p) as H. destruct (srec (rd_of s1) b p h) as [[r h1]| |]; cbn [rf] in *; auto.
      - destruct H as (x & -> & ->). cbn [bind fst snd]. eexists. split; [reflexivity|]. unfold RES. cbn [fst snd]. f_equal.
        unfold set_args, putE, s1. cbn. f_equal. destruct (s_pred s); rewrite ?app_nil_r, <- ?app_assoc; reflexivity.
      - rewrite H. reflexivity.
    Qed.

    Lemma inner_ref : forall s evs h e p,
      rf (sem_step E srec fuel (rd_of s) e p h) (parse_inner E rec fuel e p (putE s evs h)) (PART s evs).
    Proof.
      intros s evs h e p. unfold sem_step, parse_inner. apply rf_same. intros ex _.
      assert (W : forall (y : outcome) x, rf y x (RES s evs) -> rf y x (PART s evs)).
      { intros y x H. eapply rf_impl; [exact H|]. apply RES_PART. }
      destruct ex.
      - apply pub_ref.
      - unfold parse_pub_replace. apply R_bind. intros [[q F]|] h1 _; apply rf_ok; [reflexivity|apply PART_none].
      - apply W, or_ref.
      - apply and_ref.
      - unfold parse_token. eapply rf_bind; [apply one_ref|]. intros [[t q]|] b _ ->; [|apply rf_ok; apply PART_none0].
        apply rf_same. intros want _. destruct (want =? t); apply rf_ok; [reflexivity|apply PART_none].
      - pose proof (by_text_ref s evs h p text ty) as H.
        destruct (by_text E p text ty) as [[[q F]|]| |]; cbn in *; auto.
        destruct H as (b & -> & ->). eexists. split; [reflexivity|]. apply PART_none0.
      - apply rep_ref.
      - pose proof (skip_ref fuel s evs h first body [] p (Forall_nil _)) as H. cbn [skip_ev] in H. rewrite app_nil_r in H. exact H.
      - unfold parse_opt. apply R_bind. intros [[q F]|] h1 _; apply rf_ok; reflexivity.
      - unfold parse_not. apply pred_bind. intros [[q F]|] h1 _; apply rf_ok; [apply PART_none0|].
        unfold PART. cbn. rewrite app_nil_r. reflexivity.
      - unfold parse_eof. destruct (p_empty p); apply rf_ok; [|apply PART_none0]. unfold PART. cbn. rewrite app_nil_r. reflexivity.
      - unfold parse_any. eapply rf_bind; [apply one_ref|]. intros [[t q]|] b _ ->; apply rf_ok; [reflexivity|apply PART_none0].
      - apply layer_ref.
      - apply W, go_ref.
      - apply W. apply enter_ref.
      - apply W. apply enter_ref.
      - unfold parse_is_in. cbn [putE s_ctxs rd_of r_ctxs]. apply rf_same. intros v _. fold (putE s evs h).
        destruct v; apply rf_ok; [|apply PART_none0]. unfold PART. cbn. rewrite app_nil_r. reflexivity.
      - apply W. apply call_ref.
      - unfold parse_var. cbn [putE s_args rd_of r_args]. apply rf_same. intros o _. apply rf_same. intros e' _.
        apply W. apply (R s evs h e' p).
      - unfold parse_prev_is. cbn [putE s_prev]. destruct (h_prev h); [|apply rf_ok; apply PART_none0].
        apply rf_same. intros v _. fold (putE s evs h). destruct v; apply rf_ok; [|apply PART_none0].
        unfold PART. cbn. rewrite app_nil_r. reflexivity.
      - apply inject_ref.
      - apply cached_ref.
    Qed.

    Lemma step_ref : forall s evs h e p,
      rf (sem_step E srec fuel (rd_of s) e p h) (parse_step E rec fuel e p (putE s evs h)) (RES s evs).
    Proof.
      intros s evs h e p. unfold parse_step. cbv zeta. pose proof (inner_ref s evs h e p) as H.
      destruct (sem_step E srec fuel (rd_of s) e p h) as [[[[q F]|] h1]| |]; cbn [rf] in *; auto.
      - destruct H as (b & -> & H). unfold PART in H. cbn in H. subst b. eexists. split; reflexivity.
      - destruct H as (b & -> & t & ->). cbn [bind snd]. change (mark (putE s evs h)) with (mark (putE s evs h1)).
        rewrite rollback_putE. cbn [bind]. eexists. split; [reflexivity|]. unfold RES. cbn. rewrite app_nil_r. reflexivity.
      - rewrite H. reflexivity.
    Qed.
  End Rec.

  Lemma sem_ref : forall fuel s evs h e p,
    rf (sem E fuel (rd_of s) e p h) (parse_expr E fuel e p (putE s evs h)) (RES s evs).
  Proof.
    induction fuel as [|f IH]; intros s evs h e p; [reflexivity|]. cbn [sem parse_expr]. apply step_ref. exact IH.
  Qed.

  (** Whole files. *)
  Lemma file_ref : forall fuel, rf (sem_file E fuel) (parse_events E fuel) (fun t evs => evs = encs [t]).
  Proof.
    intros fuel. unfold sem_file, parse_events.
    pose proof (sem_ref fuel new_st [] (mkRg None None) 0 (new_pos E)) as H.
    change (putE new_st [] (mkRg None None)) with new_st in H. change (rd_of new_st) with (mkRd false (repeat false 16) (repeat None 16)) in H.
    eapply rf_bind; [exact H|]. intros [r h1] b _ ->. cbn [fst snd app].
    destruct r as [[lf F]|]; cbn [unwrap bind option_map fst fev]; [|exact I].
    destruct (p_empty lf) eqn:PE.
    - destruct F as [|t [|]]; cbn; try exact I. eexists. split; [reflexivity|]. rewrite app_nil_r. reflexivity.
    - destruct F as [|[ty pre body| |] [|]]; try exact I.
      assert (X : encs [PNode ty pre body] = (pre_enc pre ++ EvStart ty None :: encs body) ++ [EvEnd]).
      { cbn [encs flat_map]. rewrite app_nil_r, enc_node, <- app_assoc. reflexivity. }
      rewrite X, reopen_putE. cbn [bind]. unfold start_error. rewrite emit_putE.
      eapply rf_bind; [apply all_toks_ref|]. intros T b _ (q & ->). unfold finish. rewrite !emit_putE.
      apply rf_ok. unfold putE. cbn [s_events new_st s_pred app].
      rewrite encs_cons, enc_node, encs_app, encs_cons, enc_node. cbn [pre_enc app encs flat_map]. fold (encs T).
      rewrite <- !app_assoc. cbn [app]. rewrite <- !app_assoc. cbn [app]. rewrite <- !app_assoc. reflexivity.
  Qed.
End Refine.
