(** Error-free grammar files are complete. *)
From Coq Require Import List Arith Bool Lia.
From Verif Require Import Base BaseFacts TextModel TextSpec TreeModel TreeSpec TreeProofs SearchProofs LexModel LexSpec LexProofs GrammarModel ParserModel ForestSpec SemSpec
  PegSpec PegProofs RefineProofs SpanSpec SpanProofs ConvertModel ConvertSpec FileProofs MonoProofs LeafSpec LeafProofs WellFormed CheckProofs GrammarData
  FileEditSpec AnalysisModel AnalysisSpec CodegenSpec PropsPeg PropsCheck DeriveSpec DeriveProofs ShapeCheck FallShape.
Import ListNotations.

(** ** The tree behind a parsed file *)
Lemma parsed : forall L c fuel txt f inc,
  well_formed (l_g L) c = true -> plain_spellings (l_g L) = true -> proper_spellings (l_g L) (l_ws L) ->
  progressing (l_lexer L) -> (forall b r, l_ws L (tk_ty (l_lexer L (b :: r))) = true -> blank b = true) ->
  (forall ty sp b, l_binder L ty sp b <= length sp) ->
  parse_file L fuel txt = Ok (f, inc) ->
  exists T d toks, wf_file f T /\ f_text f = txt /\ bare (l_ws L) T = [d] /\ derivation (l_g L) false d
    /\ lex (l_lexer L) txt = Ok toks /\ tokenizes (l_lexer L) txt toks /\ spells (l_g L) txt 0 (leaves T) toks.
Proof.
  intros L c fuel txt f inc WF PL PS PR BL LB H. destruct (lex_ok (l_lexer L) txt PR) as (toks & LX & TK).
  pose proof (tokenizes_lens _ PR _ _ TK) as LEN. pose proof WF as WF'. unfold well_formed in WF'. rewrite !andb_true_iff in WF'. destruct WF' as [[_ HS] _].
  assert (R0 : exists ty body, nth_error (g_rules (l_g L)) 0 = Some (EPub ty body false)).
  { unfold has_start in HS. destruct (g_rules (l_g L)) as [|x rules]; [discriminate|]. destruct x as [ty body [|]| | | | | | | | | | | | | | | | | | | | |]; try discriminate. cbn. eauto. }
  destruct R0 as (ty & body & R0). assert (NB : no_ws_byte (l_g L) (l_ws L) txt toks) by (eapply plain_no_ws_byte; eauto).
  destruct (well_formed_tree (l_g L) c (l_ws L) txt toks LEN WF) as (t & PT). destruct (file_complete _ _ PT) as (N & SN).
  assert (H' : parse_file L (N + fuel) txt = Ok (f, inc)).
  { destruct (parse_file_mono L fuel (N + fuel) txt ltac:(lia)) as [Q|Q]; congruence. }
  destruct (parse_file_ok L (N + fuel) txt f inc ty body PR LB R0 H' toks LX NB ltac:(rewrite SN by lia; discriminate)) as (t' & T & fty & S1 & _ & _ & F1 & WT & _ & _ & CV & SP).
  rewrite SN in S1 by lia. injection S1 as <-. destruct (file_derivation _ _ _ _ _ _ _ _ PS R0 PT) as (M & d & B & D).
  exists T, d, toks. split; [exact WT|]. split; [exact F1|]. split; [|split; [exact D|split; [exact LX|split; [exact TK|]]]].
  - pose proof (covers_bare _ _ _ _ CV M) as X. rewrite B in X. cbn [flat_map] in X. rewrite app_nil_r in X. exact X.
  - exact (root_spells (new_env None (l_g L) (l_ws L) txt toks) (l_ws L) eq_refl t _ T _ CV (with_text_fst _ _ _) SP).
Qed.

(** ** Leaves and tokens *)
Lemma leaves_len : forall t, sum (map snd (leaves t)) = tlen t.
Proof.
  fix IH 1. intros [ty n|ty cs]; cbn [leaves tlen]; [cbn; lia|]. induction cs as [|c cs IHc]; [reflexivity|].
  cbn [flat_map map]. rewrite map_app, sum_app, IH. unfold sum in *. cbn [fold_right]. lia.
Qed.
Lemma leaves_lens : forall ts, sum (map snd (flat_map leaves ts)) = tlens ts.
Proof. induction ts as [|t ts IH]; [reflexivity|]. cbn [flat_map]. rewrite map_app, sum_app, leaves_len, IH. reflexivity. Qed.
Lemma At_leaves : forall T n p par x, At T n p par x -> exists l1 l2, leaves T = l1 ++ leaves x ++ l2 /\ sum (map snd l1) = p.
Proof.
  induction 1 as [|i p par ty pre c post _ IH]; [exists [], []; rewrite app_nil_r; auto|]. destruct IH as (l1 & l2 & E & S).
  exists (l1 ++ flat_map leaves pre), (flat_map leaves post ++ l2). cbn [leaves] in E. rewrite flat_map_app in E. cbn [flat_map] in E. split.
  - rewrite E. rewrite <- !app_assoc. reflexivity.
  - rewrite map_app, sum_app, leaves_lens, S. reflexivity.
Qed.

Lemma tokenizes_drop : forall lx a b txt, tokenizes lx txt (a ++ b) -> tokenizes lx (skipn (lens a) txt) b.
Proof.
  induction a as [|t a IH]; intros b txt H; [exact H|]. inversion H as [|? ? ? NE E R]; subst. apply IH in R. unfold lens. cbn [map sum fold_right].
  rewrite skipn_skipn in R. replace (lens a + tk_len (lx txt)) with (tk_len (lx txt) + lens a) in R by lia. exact R.
Qed.

(** Where a leaf starts, a token starts. *)
Lemma spells_boundary : forall g txt off l ts, spells g txt off l ts -> forall l1 l2, l = l1 ++ l2 -> exists k, sum (map snd l1) = lens (firstn k ts).
Proof.
  induction 1 as [off|off t l ts _ IH|off i j ty ctx gr l ts _ _ LE _ _ IH]; intros l1 l2 E.
  - destruct l1; [|discriminate E]. exists 0. reflexivity.
  - destruct l1 as [|x l1]; [exists 0; reflexivity|]. injection E as <- E. destruct (IH _ _ E) as (k & K). exists (S k). cbn [firstn map snd]. unfold lens in *. cbn [map]. unfold sum in *. cbn [fold_right]. lia.
  - destruct l1 as [|x l1]; [exists 0; reflexivity|]. injection E as <- E. destruct (IH _ _ E) as (k & K). exists (length gr + k). rewrite firstn_app_2. unfold lens in *. rewrite map_app, sum_app.
    cbn [map snd]. unfold sum at 1. cbn [fold_right]. fold (sum (map snd l1)). lia.
Qed.

(** A leaf of a type no contextual token has is a token. *)
Lemma spells_token : forall g lx txt off l ts, spells g txt off l ts -> tokenizes lx (skipn off txt) ts -> forall l1 ty n l2, l = l1 ++ (ty, n) :: l2 ->
  (forall i j ctx, nth_error (g_rules g) i = Some (EContextual j ctx) -> nth_error (g_types g) j <> Some ty) ->
  lx (skipn (off + sum (map snd l1)) txt) = mkTok ty n /\ skipn (off + sum (map snd l1)) txt <> [].
Proof.
  induction 1 as [off|off t l ts _ IH|off i j ty0 ctx gr l ts R T LE SU _ IH]; intros TK l1 ty n l2 E NC.
  - destruct l1; discriminate E.
  - destruct l1 as [|x l1].
    + injection E as <- <- <-. cbn [map]. unfold sum. cbn [fold_right]. rewrite Nat.add_0_r. inversion TK as [|? ? ? NE EQ _]; subst. split; [|exact NE]. destruct (lx (skipn off txt)); reflexivity.
    + injection E as <- E. assert (TK' : tokenizes lx (skipn (off + tk_len t) txt) ts).
      { inversion TK as [|? ? ? _ _ TR]; subst. rewrite skipn_skipn in TR. exact TR. }
      clear TK. rename TK' into TK. destruct (IH TK l1 ty n l2 E NC) as (A & B). cbn [map snd]. unfold sum in *. cbn [fold_right]. rewrite Nat.add_assoc. auto.
  - destruct l1 as [|x l1].
    + injection E as <- <- <-. destruct (NC i j ctx R T).
    + injection E as <- E. apply tokenizes_drop in TK. rewrite LE, skipn_skipn in TK. destruct (IH TK l1 ty n l2 E NC) as (A & B).
      cbn [map snd]. unfold sum in *. cbn [fold_right]. rewrite Nat.add_assoc. auto.
Qed.

(** Node boundaries are token boundaries. *)
Lemma parsed_chars : forall g txt T toks, spells g txt 0 (leaves T) toks -> (forall k, aligned txt (lens (firstn k toks))) -> char_tree txt T.
Proof.
  intros g txt T toks SP AL i p par t A. destruct (At_leaves _ _ _ _ _ A) as (l1 & l2 & E & S). split.
  - destruct (spells_boundary _ _ _ _ _ SP l1 (leaves t ++ l2) E) as (k & K). rewrite <- S, K. apply AL.
  - rewrite app_assoc in E. destruct (spells_boundary _ _ _ _ _ SP (l1 ++ leaves t) l2 E) as (k & K). rewrite map_app, sum_app, leaves_len, S in K. rewrite K. apply AL.
Qed.

(** ** From trees to nodes *)
Section Nodes.
  Variable f : file.
  Variable T : tree.
  Hypothesis WF : wf_file f T.
  Variable ws : nat -> bool.
  Variable D : demands.
  Hypothesis FU : Forall (fulfilled D) (bare ws T).
  Hypothesis CF : Forall (confined D) (bare ws T).

  Lemma node_at : forall n, valid f n -> exists p par x, At T n p par x.
  Proof.
    intros n V. destruct WF as ((LN & _) & _). unfold valid in V. rewrite LN in V. destruct (AtG_total T 0 0 None n ltac:(lia)) as (p & par & x & A). exists p, par, x. apply AtG_At. exact A.
  Qed.
  Lemma node_data : forall n p par x, At T n p par x -> nth_error (f_nodes f) n = Some (data_of n p par x).
  Proof. intros n p par x A. destruct WF as ((_ & S) & _). exact (S _ _ _ _ A). Qed.
  Lemma node_ty : forall n p par x, At T n p par x -> ty f n = t_ty x.
  Proof. intros n p par x A. unfold ty, at_node. rewrite (node_data _ _ _ _ A). reflexivity. Qed.
  Lemma node_par : forall n p pa x, At T n p pa x -> par f n = pa.
  Proof. intros n p pa x A. unfold par, at_node. rewrite (node_data _ _ _ _ A). reflexivity. Qed.
  Lemma node_str : forall n p pa x, At T n p pa x -> str f n = sub p (p + tlen x) (f_text f).
  Proof. intros n p pa x A. unfold str, rng, at_node. rewrite (node_data _ _ _ _ A). reflexivity. Qed.

  Lemma kids_from : forall post n p pa t pre, At T n p pa (Node t (pre ++ post)) -> map (ty f) (child_ids (S n + tsizes pre) post) = map t_ty post.
  Proof.
    induction post as [|c post IH]; intros n p pa t pre A; [reflexivity|]. cbn [child_ids map]. f_equal.
    - exact (node_ty _ _ _ _ (At_child T _ _ _ _ _ _ _ A)).
    - specialize (IH n p pa t (pre ++ [c])). rewrite <- app_assoc in IH. specialize (IH A). unfold tsizes in IH. rewrite map_app, sum_app in IH. unfold tsizes. cbn [map] in IH. unfold sum in *. cbn [fold_right] in IH.
      rewrite Nat.add_0_r in IH. rewrite Nat.add_assoc in IH. exact IH.
  Qed.
  Lemma node_kids : forall n p pa x, At T n p pa x -> map (ty f) (kids f n) = map t_ty (t_children x).
  Proof.
    intros n p pa x A. unfold kids, at_node. rewrite (node_data _ _ _ _ A). cbn [data_of n_children]. destruct x as [t l|t cs]; [reflexivity|]. cbn [t_children].
    pose proof (kids_from cs n p pa t [] A) as K. unfold tsizes in K. cbn [map] in K. unfold sum in K. cbn [fold_right] in K. rewrite Nat.add_0_r in K. exact K.
  Qed.

  (** A kid for each child tree and the other way round. *)
  Lemma kid_some : forall n p pa x c, At T n p pa x -> In c (t_children x) -> kid f (t_ty c) n <> None.
  Proof.
    intros n p pa x c A J N. unfold kid, kids_of in N. apply (in_map t_ty) in J. rewrite <- (node_kids _ _ _ _ A) in J. apply in_map_iff in J. destruct J as (m & E & J).
    assert (X : In m (filter (fun m => ty f m =? t_ty c) (kids f n))) by (apply filter_In; split; [exact J|apply Nat.eqb_eq; exact E]).
    destruct (filter (fun m => ty f m =? t_ty c) (kids f n)); [destruct X|discriminate N].
  Qed.
  Lemma kid_tree : forall n p pa x m, At T n p pa x -> In m (kids f n) -> exists c, In c (t_children x) /\ t_ty c = ty f m.
  Proof.
    intros n p pa x m A J. apply (in_map (ty f)) in J. rewrite (node_kids _ _ _ _ A) in J. apply in_map_iff in J. destruct J as (c & E & J). exists c. auto.
  Qed.

  Lemma bare_one : forall x, ws (t_ty x) = false -> bare ws x = [match x with Leaf t _ => DLeaf t | Node t cs => DNode t (flat_map (bare ws) cs) end].
  Proof. intros [t n|t cs] W; cbn in *; [rewrite W|]; reflexivity. Qed.
  Lemma bare_types : forall x y, In y (bare ws x) -> dtype y = t_ty x.
  Proof. intros [t n|t cs] y J; cbn in J; [destruct (ws t); [destruct J|]|]; destruct J as [<-|[]]; reflexivity. Qed.

  Lemma fulfilled_at : forall n p pa x, At T n p pa x -> Forall (fulfilled D) (bare ws x).
  Proof.
    induction 1 as [|i p pa t pre c post A IH]; [exact FU|]. cbn [bare] in IH. inversion IH as [|? ? X _]; subst. inversion X as [|? ? _ _ K]; subst.
    rewrite flat_map_app in K. apply Forall_app in K. destruct K as (_ & K). cbn [flat_map] in K. apply Forall_app in K. exact (proj1 K).
  Qed.
  Lemma confined_at : dm_outer D = SYN_RULE -> forall n p pa x, At T n p pa x -> Forall (confined D) (bare ws x) \/ exists r, enclosing_rule f n r.
  Proof.
    intros OU. induction 1 as [|i p pa t pre c post A IH]; [left; exact CF|].
    pose proof (At_child T _ _ _ _ _ _ _ A) as AC. assert (UP : forall r, enclosing_rule f i r -> exists r, enclosing_rule f (S i + tsizes pre) r).
    { intros r R. destruct (Nat.eq_dec (ty f (S i + tsizes pre)) SYN_RULE) as [E|NE]; [exists (S i + tsizes pre); apply er_here; exact E|].
      exists r. apply er_up with (p := i); [exact NE|exact (node_par _ _ _ _ AC)|exact R]. }
    destruct IH as [IH|(r & R)]; [|right; exact (UP r R)]. cbn [bare] in IH. inversion IH as [|? ? X _]; subst. inversion X as [|? O|? ? _ K]; subst.
    - right. apply (UP i). apply er_here. rewrite (node_ty _ _ _ _ A). cbn. congruence.
    - left. rewrite flat_map_app in K. apply Forall_app in K. destruct K as (_ & K). cbn [flat_map] in K. apply Forall_app in K. exact (proj1 K).
  Qed.

  Lemma fulfils_at : forall n p pa x, At T n p pa x -> ws (t_ty x) = false -> fulfils D (t_ty x) (flat_map (bare ws) (t_children x)).
  Proof.
    intros n p pa x A W. pose proof (fulfilled_at _ _ _ _ A) as F. rewrite (bare_one x W) in F. inversion F as [|? ? X _]; subst. destruct x; inversion X; assumption.
  Qed.
  Lemma has_child : forall S cs, has S (flat_map (bare ws) cs) -> exists c, In c cs /\ In (t_ty c) S.
  Proof. intros S cs (t & J & I). apply in_flat_map in J. destruct J as (c & JC & J). exists c. rewrite <- (bare_types _ _ J). auto. Qed.
  Lemma lacks_child : forall S cs c, lacks S (flat_map (bare ws) cs) -> In c cs -> ws (t_ty c) = false -> ~ In (t_ty c) S.
  Proof.
    intros S cs c L J W I. pose proof (bare_one c W) as B. destruct (bare ws c) as [|y l] eqn:BC; [discriminate B|]. apply (L y).
    - apply in_flat_map. exists c. split; [exact J|]. rewrite BC. left. reflexivity.
    - rewrite (bare_types c y); [exact I|rewrite BC; left; reflexivity].
  Qed.
  Lemma needs_kid : forall t n k S, is_a f t n -> ws t = false -> In (t, k) (dm_needs D) -> nth_error (dm_sets D) k = Some S -> exists u, In u S /\ kid f u n <> None.
  Proof.
    intros t n k S (V & E) W J N. destruct (node_at n V) as (p & pa & x & A). rewrite (node_ty _ _ _ _ A) in E. subst t.
    destruct (fulfils_at _ _ _ _ A W) as (F & _). destruct (has_child _ _ (F k S J N)) as (c & JC & I). exists (t_ty c). split; [exact I|exact (kid_some _ _ _ _ _ A JC)].
  Qed.
End Nodes.

(** ** Grammar files *)
Section Fall.
  Variable f : file.
  Variable T : tree.
  Hypothesis WF : wf_file f T.
  Notation D := fall_demands.
  Hypothesis FU : Forall (fulfilled D) (bare fall_ws T).
  Hypothesis CF : Forall (confined D) (bare fall_ws T).

  Lemma one_kid : forall t n u, is_a f t n -> fall_ws t = false -> In (t, 0) (dm_needs D) \/ In (t, 2) (dm_needs D) \/ In (t, 3) (dm_needs D) ->
    u = (if t =? SYN_RULE then BLOCK_EXPR else if t =? METHOD_DEF then AST_SELECTOR else IDENT) -> kid f u n <> None.
  Proof.
    intros t n u IA W J ->.
    assert (X : exists k S, In (t, k) (dm_needs D) /\ nth_error (dm_sets D) k = Some S /\ S = [if t =? SYN_RULE then BLOCK_EXPR else if t =? METHOD_DEF then AST_SELECTOR else IDENT]).
    { destruct J as [J|[J|J]]; pose proof J as J'; cbn in J'; repeat (destruct J' as [J'|J']; [first [discriminate J'|injection J' as <-; do 2 eexists; split; [exact J|split; reflexivity]]|]); destruct J'. }
    destruct X as (k & S & JN & N & ES). destruct (needs_kid f T WF fall_ws D FU t n k S IA W JN N) as (v & I & K). subst S. destruct I as [<-|[]]. exact K.
  Qed.
  Hypothesis STR : forall n, is_a f SIMPLE_STRING n -> exists b, str f n = 39 :: b ++ [39].

  Lemma fall_complete : complete f.
  Proof.
    constructor.
    - intros n IA. split.
      + destruct (needs_kid f T WF fall_ws D FU REF_EXPR n 1 [IDENT; SIMPLE_STRING] IA eq_refl ltac:(cbn; tauto) eq_refl) as (u & I & K).
        unfold ref_name. destruct I as [<-|[<-|[]]]; [destruct (kid f IDENT n); [discriminate|congruence]|]. destruct (kid f IDENT n); [discriminate|]. destruct (kid f SIMPLE_STRING n); [discriminate|congruence].
      + pose proof IA as (V & E). destruct (node_at f T WF n V) as (p & pa & x & A). rewrite (node_ty f T WF _ _ _ _ A) in E.
        destruct (confined_at f T WF fall_ws D CF eq_refl _ _ _ _ A) as [C|R]; [|exact R]. exfalso. rewrite bare_one in C by (rewrite E; reflexivity).
        inversion C as [|? ? X _]; subst. destruct x as [t l|t cs]; cbn in E; subst t; inversion X; cbn in *; congruence.
    - intros n t J IA. unfold name_of. assert (K : kid f IDENT n <> None); [|destruct (kid f IDENT n); [discriminate|congruence]].
      apply (one_kid t n IDENT IA); cbn in J; repeat (destruct J as [<-|J]; [vm_compute; tauto|]); destruct J.
    - exact STR.
    - intros n IA. assert (K : kid f BLOCK_EXPR n <> None) by (apply (one_kid SYN_RULE n BLOCK_EXPR IA); vm_compute; tauto).
      intros E. apply K. unfold kid, kids_of. unfold exprs in E.
      destruct (filter (fun c => ty f c =? BLOCK_EXPR) (kids f n)) as [|m l] eqn:F; [reflexivity|]. exfalso.
      assert (J : In m (filter (fun c => ty f c =? BLOCK_EXPR) (kids f n))) by (rewrite F; left; reflexivity). apply filter_In in J. destruct J as (J & TY). apply Nat.eqb_eq in TY.
      assert (X : In m (filter (fun c => is_expr (ty f c)) (kids f n))) by (apply filter_In; split; [exact J|rewrite TY; reflexivity]). rewrite E in X. destruct X.
    - intros n IA. apply (one_kid METHOD_DEF n AST_SELECTOR IA); vm_compute; tauto.
  Qed.

  Lemma fall_bodies : block_bodies f.
  Proof.
    intros r J. unfold rules, kids_of in J. apply filter_In in J. destruct J as (J & E). apply Nat.eqb_eq in E.
    assert (V : valid f r).
    { unfold ty, at_node in E. unfold valid. destruct (nth_error (f_nodes f) r) eqn:N; [apply nth_error_Some; congruence|discriminate E]. }
    pose proof (co_body _ fall_complete r (conj V E)) as NE. destruct (exprs f r) as [|b l] eqn:X; [contradiction|]. exists b, l. split; [reflexivity|].
    assert (JB : In b (exprs f r)) by (rewrite X; left; reflexivity). unfold exprs in JB. apply filter_In in JB. destruct JB as (JB & EX).
    destruct (node_at f T WF r V) as (p & pa & x & A). destruct (kid_tree f T WF _ _ _ _ _ A JB) as (c & JC & TC).
    pose proof (node_ty f T WF _ _ _ _ A) as TX. rewrite E in TX.
    destruct (fulfils_at T fall_ws D FU _ _ _ _ A ltac:(rewrite <- TX; reflexivity)) as (_ & L). specialize (L (eq_sym TX)).
    rewrite <- TC in EX |- *. unfold is_expr in EX. apply existsb_exists in EX. destruct EX as (u & JU & EU). apply Nat.eqb_eq in EU.
    assert (W : fall_ws (t_ty c) = false) by (rewrite EU; cbn in JU; repeat (destruct JU as [<-|JU]; [reflexivity|]); destruct JU).
    pose proof (lacks_child fall_ws _ _ c L JC W) as N. destruct (Nat.eq_dec (t_ty c) BLOCK_EXPR) as [Q|Q]; [exact Q|]. exfalso. apply N. apply filter_In. split; [rewrite EU; exact JU|].
    apply negb_true_iff. apply Nat.eqb_neq. exact Q.
  Qed.
End Fall.

(** Strings are quoted if the lexer makes them so. *)
Lemma fall_strings : forall f T lx toks, wf_file f T -> Forall (fulfilled fall_demands) (bare fall_ws T) ->
  spells fall_grammar (f_text f) 0 (leaves T) toks -> tokenizes lx (f_text f) toks ->
  (forall s, s <> [] -> tk_ty (lx s) = SIMPLE_STRING -> exists b, firstn (tk_len (lx s)) s = 39 :: b ++ [39]) ->
  forall n, is_a f SIMPLE_STRING n -> exists b, str f n = 39 :: b ++ [39].
Proof.
  intros f T lx toks WF FU SP TK Q n (V & E). destruct (node_at f T WF n V) as (p & pa & x & A). rewrite (node_ty f T WF _ _ _ _ A) in E. rewrite (node_str f T WF _ _ _ _ A).
  pose proof (fulfilled_at T fall_ws fall_demands FU _ _ _ _ A) as F. rewrite bare_one in F by (rewrite E; reflexivity). inversion F as [|? ? X _]; subst.
  destruct x as [t len|t cs]; cbn in E; subst t; [|inversion X; cbn in *; congruence]. cbn [tlen].
  destruct (At_leaves _ _ _ _ _ A) as (l1 & l2 & EL & S). cbn [leaves app] in EL.
  destruct (spells_token _ lx _ _ _ _ SP TK l1 SIMPLE_STRING len l2 EL) as (K & NE).
  - assert (C : forallb (fun x => match x with EContextual j _ => negb (match nth_error (g_types fall_grammar) j with Some t => t =? SIMPLE_STRING | None => false end) | _ => true end) (g_rules fall_grammar) = true) by (vm_compute; reflexivity).
    rewrite forallb_forall in C. intros i j ctx R N. apply nth_error_In in R. apply C in R. rewrite N in R. discriminate R.
  - cbn [Nat.add] in K, NE. rewrite S in K, NE. destruct (Q (skipn p (f_text f)) NE ltac:(rewrite K; reflexivity)) as (b & B). rewrite K in B. cbn [tk_len] in B. exists b.
    unfold sub. rewrite <- B. f_equal. lia.
Qed.

(** ** Error-free files *)
Lemma clean_tree : forall f T ws, wf_file f T -> (forall n, ~ is_a f ERROR n) -> forall d, bare ws T = [d] -> clean d.
Proof.
  intros f T ws WF NE.
  assert (G : forall x n p pa, At T n p pa x -> Forall clean (bare ws x)).
  { fix IH 1. intros x n p pa A.
    assert (NT : t_ty x <> ERROR).
    { rewrite <- (node_ty f T WF _ _ _ _ A). intros E. apply (NE n). split; [|exact E]. unfold valid. apply nth_error_Some. rewrite (node_data f T WF _ _ _ _ A). discriminate. }
    destruct x as [t l|t cs]; cbn [bare t_ty] in *.
    - destruct (ws t); constructor; [constructor; exact NT|constructor].
    - constructor; [|constructor]. constructor; [exact NT|].
      assert (L : forall post pre, At T n p pa (Node t (pre ++ post)) -> Forall clean (flat_map (bare ws) post)).
      { induction post as [|c post IHp]; intros pre AC; [constructor|]. cbn [flat_map]. apply Forall_app. split; [exact (IH c _ _ _ (At_child T _ _ _ _ _ _ _ AC))|].
        apply (IHp (pre ++ [c])). rewrite <- app_assoc. exact AC. }
      exact (L cs [] A). }
  intros d B. pose proof (G T 0 0 None (At_root T)) as C. rewrite B in C. inversion C; assumption.
Qed.

Definition quotes_strings (lx : lexer) : Prop :=
  forall s, s <> [] -> tk_ty (lx s) = SIMPLE_STRING -> exists b, firstn (tk_len (lx s)) s = 39 :: b ++ [39].

Lemma error_free : forall L fuel txt f inc, l_g L = fall_grammar -> (forall t, l_ws L t = fall_ws t) ->
  progressing (l_lexer L) -> (forall b r, l_ws L (tk_ty (l_lexer L (b :: r))) = true -> blank b = true) -> quotes_strings (l_lexer L) ->
  (forall ty sp b, l_binder L ty sp b <= length sp) -> (forall toks k, lex (l_lexer L) txt = Ok toks -> aligned txt (lens (firstn k toks))) ->
  parse_file L fuel txt = Ok (f, inc) -> (forall n, ~ is_a f ERROR n) ->
  exists T, wf_file f T /\ f_text f = txt /\ char_tree (f_text f) T /\ complete f /\ block_bodies f.
Proof.
  intros L fuel txt f inc EG EW PR BL QS LB AL H NE. destruct (C28_shipped fall_grammar sh_fall) as ((c & WFG) & PL).
  assert (PS : proper_spellings (l_g L) (l_ws L)).
  { rewrite EG. intros e ty text R. assert (C : forallb (fun x => match x with EContextual ty text => negb (length text =? 0) && match nth_error (g_types fall_grammar) ty with Some t => negb (fall_ws t) | None => true end | _ => true end) (g_rules fall_grammar) = true) by (vm_compute; reflexivity).
    rewrite forallb_forall in C. apply nth_error_In in R. apply C in R. apply andb_true_iff in R. destruct R as (A & B). split; [intros ->; discriminate A|].
    intros t N. unfold gtype in N. rewrite N in B. rewrite EW. apply negb_true_iff. exact B. }
  destruct (parsed L c fuel txt f inc ltac:(rewrite EG; exact WFG) ltac:(rewrite EG; exact PL) PS PR BL LB H) as (T & d & toks & WF & TX & B & DV & LX & TK & SP).
  rewrite EG in *.
  assert (BE : forall t, bare (l_ws L) t = bare fall_ws t).
  { fix IH 1. intros [t n|t cs]; cbn [bare]; [rewrite EW; reflexivity|]. do 2 f_equal. induction cs as [|x cs IHc]; [reflexivity|]. cbn [flat_map]. rewrite IH, IHc. reflexivity. }
  pose proof (derivation_strict _ _ DV (clean_tree f T _ WF NE d B)) as DS. rewrite BE in B.
  assert (G0 : exists i, get fall_table 0 no_args = Some i /\ i_conf i = true) by (eexists; split; [vm_compute; reflexivity|reflexivity]). destruct G0 as (i & G0 & CI).
  destruct (table_tree fall_demands fall_grammar fall_table fall_table_ok d i DS G0) as (FU & CF).
  assert (FB : Forall (fulfilled fall_demands) (bare fall_ws T)) by (rewrite B; constructor; [exact FU|constructor]).
  assert (CB : Forall (confined fall_demands) (bare fall_ws T)) by (rewrite B; constructor; [exact (CF CI)|constructor]).
  subst txt. assert (ST := fall_strings f T _ toks WF FB SP TK QS).
  exists T. split; [exact WF|]. split; [reflexivity|]. split; [exact (parsed_chars _ _ _ _ SP (fun k => AL toks k LX))|].
  split; [exact (fall_complete f T WF FB CB ST)|exact (fall_bodies f T WF FB CB ST)].
Qed.
