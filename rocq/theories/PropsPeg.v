(** Properties C20, C23, C25, C26, C27: what tree comes out of parsing a file. *)
From Coq Require Import List Arith Bool Lia.
From Verif Require Import Base BaseFacts TextModel TextSpec TreeModel TreeSpec LexModel LexSpec LexProofs GrammarModel ParserModel ForestSpec SemSpec
  PegSpec PegProofs PegFacts RefineProofs ReshuffleProofs ConvertModel ConvertSpec ConvertProofs SpanSpec SpanProofs FileProofs LeafSpec LeafProofs
  PrattSpec PrattProofs MonoProofs ExampleLang.
Import ListNotations.

(** ** C23: the parser computes the meaning of the grammar *)

(** [peg_file E t]: the grammar prescribes the tree [t] for the file (PegSpec.v). Then the parser terminates, does not
    panic however deep it recurses, and its events, reordered, spell out exactly [t]. *)
Theorem C23_file : forall E t, e_cache E = None -> peg_file E t ->
  (exists fuel evs, parse_events E fuel = Ok evs)
  /\ forall fuel, match parse_events E fuel with
                  | Ok evs => reshuffle evs = Ok (flats [t])
                  | Panic => False
                  | OutOfFuel => True
                  end.
Proof.
  intros E t NC P. destruct (file_complete E t P) as (N & SN).
  assert (AT : attached t) by (apply file_attached in P; exact P).
  assert (PN : forall f, N <= f -> parse_events E f = Ok (encs [t])).
  { intros f L. pose proof (file_ref E NC f) as R. rewrite (SN f L) in R. cbn in R. destruct R as (evs & Q & ->). exact Q. }
  split; [exists N, (encs [t]); apply PN; lia|]. intros fuel.
  destruct (events_mono E fuel (N + fuel) ltac:(lia)) as [Q|Q]; rewrite Q; [exact I|]. rewrite PN by lia.
  apply reshuffle_ok. cbn. auto.
Qed.
Print Assumptions C23_file.

(** The prescribed tree is unique. *)
Theorem C23_unique : forall E t u, peg_file E t -> peg_file E u -> t = u.
Proof. intros. eapply file_fun; eauto. Qed.
Print Assumptions C23_unique.

(** Single expressions: the outcome prescribed by the grammar is the outcome of the parser, from any state. *)
Theorem C23_expression : forall E e p s r h, e_cache E = None ->
  peg E (mkRd (s_pred s) (s_ctxs s) (s_args s)) e p (mkRg (s_prev s) (s_repl s)) r h ->
  exists fuel, forall more, exists s', parse_expr E (fuel + more) e p s = Ok (match r with Some (q, _) => Some q | None => None end, s')
    /\ s_events s' = s_events s ++ match r with Some (_, F) => if s_pred s then [] else encs F | None => [] end
    /\ s_prev s' = h_prev h /\ s_repl s' = h_repl h.
Proof.
  intros E e p s r h NC P. destruct (peg_complete E _ _ _ _ _ _ P) as (N & SN). exists N. intros more.
  pose proof (sem_ref E NC (N + more) s [] (mkRg (s_prev s) (s_repl s)) e p) as R. rewrite <- putE_self in R. unfold rd_of in R.
  rewrite SN in R by lia. cbn in R. destruct R as (b & Q & ->). cbn [fst snd app] in Q. rewrite Q.
  destruct r as [[q F]|]; cbn [option_map fst fev putE s_events s_prev s_repl]; eexists; (split; [reflexivity|]); cbn; split; auto.
  destruct (s_pred s); rewrite ?app_nil_r; reflexivity.
Qed.
Print Assumptions C23_expression.

(** Conversely, unless an operator or a suffix has to be attached to something that is not a node (which the parser
    does not notice), everything the parser returns is prescribed by the grammar. *)
Theorem C23_only : forall E fuel evs, e_cache E = None -> parse_events E fuel = Ok evs -> sem_file E fuel <> Panic ->
  exists t, peg_file E t /\ reshuffle evs = Ok (flats [t]).
Proof.
  intros E fuel evs NC H NP. pose proof (file_ref E NC fuel) as R. destruct (sem_file E fuel) as [t| |] eqn:SF; [|congruence|cbn in R; congruence].
  cbn in R. destruct R as (b & Q & ->). rewrite H in Q. injection Q as ->. apply file_sound in SF. exists t. split; [exact SF|].
  change (reshuffle (encs [t]) = Ok (flats [t])). apply reshuffle_ok. cbn. split; auto. eapply file_attached; eauto.
Qed.
Print Assumptions C23_only.

Definition calc_tree : ptree :=
  PNode 7 [] [PNode 9 [PNode 8 [] [PTok 2 1]]
                [PTok 3 1; PNode 10 [PNode 8 [] [PTok 2 1]] [PTok 4 1; PNode 12 [] [PTok 13 1; PNode 8 [] [PTok 2 1]]]]].

Example C23_example : peg_file (calc_env calc_text) calc_tree
  /\ peg_file (calc_env calc_broken) (PNode 7 [] [PNode 11 [] [PTok 5 1; PNode 8 [] [PTok 2 1]; PNode 0 [] []]; PNode 0 [] [PTok 2 1]]).
Proof. split; apply (file_sound _ 20); vm_compute; reflexivity. Qed.

(** ** C20: parsing is lossless *)

(** For every language whose lexer makes progress and whose binder binds at most the whitespace it is shown, and every
    text for which the grammar prescribes a tree: if parsing returns, the text of the file is the input, and the leaves of
    the tree are, left to right, the tokens of the lexer (a contextual token groups adjacent ones). *)
Theorem C20_lossless : forall L fuel txt f inc toks ty body,
  progressing (l_lexer L) -> (forall ty sp b, l_binder L ty sp b <= length sp) ->
  nth_error (g_rules (l_g L)) 0 = Some (EPub ty body false) ->
  lex (l_lexer L) txt = Ok toks -> no_ws_byte (l_g L) (l_ws L) txt toks ->
  (exists t, peg_file (new_env None (l_g L) (l_ws L) txt toks) t) ->
  parse_file L fuel txt = Ok (f, inc) ->
  f_text f = txt /\ exists T, wf_file f T /\ spells (l_g L) txt 0 (leaves T) toks.
Proof.
  intros L fuel txt f inc toks ty body PR LB R0 LX NB (t & PT) H. destruct (file_complete _ _ PT) as (N & SN).
  assert (H' : parse_file L (N + fuel) txt = Ok (f, inc)).
  { destruct (parse_file_mono L fuel (N + fuel) txt ltac:(lia)) as [Q|Q]; congruence. }
  destruct (parse_file_ok L (N + fuel) txt f inc ty body PR LB R0 H' toks LX NB ltac:(rewrite SN by lia; discriminate)) as (t' & T & fty & S1 & _ & _ & F1 & WF & _ & _ & CV & SP).
  split; [exact F1|]. exists T. split; [exact WF|].
  apply (root_spells (new_env None (l_g L) (l_ws L) txt toks) (l_ws L) eq_refl t' _ T _ CV (with_text_fst _ _ _) SP).
Qed.
Print Assumptions C20_lossless.

(** And parsing does return, provided the lexer cuts between characters (otherwise reading a whitespace token panics). *)
Lemma own_spaces_ok : forall txt toks off w, off + lens toks <= length txt -> (forall k, aligned txt (off + lens (firstn k toks))) ->
  incl w (with_text txt off toks) -> exists o, own_spaces (seen w) = Ok o.
Proof.
  intros txt toks off w LE AL. induction w as [|x w IH]; intros IN; [exists []; reflexivity|].
  destruct IH as (o & IH); [intros y Y; apply IN; right; exact Y|].
  assert (AS : forall toks off, off + lens toks <= length txt -> (forall k, aligned txt (off + lens (firstn k toks))) ->
    In x (with_text txt off toks) -> exists b, as_str (snd x) = Ok b).
  { clear. induction toks as [|t toks IH]; intros off LE AL IN; [destruct IN|]. rewrite lens_cons in LE. destruct IN as [<-|IN].
    - cbn [snd]. eexists. apply TextProofs.as_str_ok; cbn [owned trange rstart rend].
      + unfold TextSpec.wf_text. cbn. lia.
      + specialize (AL 0). cbn in AL. rewrite Nat.add_0_r in AL. exact AL.
      + specialize (AL 1). cbn [firstn] in AL. rewrite lens_cons in AL. cbn in AL. rewrite Nat.add_0_r in AL. exact AL.
    - eapply (IH (off + tk_len t)); [lia| |exact IN]. intros k. specialize (AL (S k)). cbn [firstn] in AL. rewrite lens_cons, Nat.add_assoc in AL. exact AL. }
  destruct (AS toks off LE AL (IN x (or_introl eq_refl))) as (b & B). exists ((tk_ty (fst x), b) :: o). cbn [seen map own_spaces].
  rewrite B. cbn [bind]. fold (seen w). rewrite IH. reflexivity.
Qed.

Theorem C20_returns : forall L txt toks ty body,
  progressing (l_lexer L) -> (forall ty sp b, l_binder L ty sp b <= length sp) ->
  nth_error (g_rules (l_g L)) 0 = Some (EPub ty body false) ->
  lex (l_lexer L) txt = Ok toks -> no_ws_byte (l_g L) (l_ws L) txt toks ->
  (forall k, aligned txt (lens (firstn k toks))) ->
  (exists t, peg_file (new_env None (l_g L) (l_ws L) txt toks) t) ->
  exists f inc fuel, forall more, parse_file L (fuel + more) txt = Ok (f, inc).
Proof.
  intros L txt toks ty body PR LB R0 LX NB AL (t & PT). destruct (file_complete _ _ PT) as (N & SN).
  set (E := new_env None (l_g L) (l_ws L) txt toks) in *.
  assert (RET : exists f inc, parse_file L N txt = Ok (f, inc)).
  { destruct (lex_ok (l_lexer L) txt PR) as (ts & LX' & TK). rewrite LX in LX'. injection LX' as <-.
    pose proof (tokenizes_lens _ PR _ _ TK) as LEN. destruct (tokenizes_cut _ PR _ _ TK) as (_ & POS & _).
    assert (TI : tight E (l_ws L)) by (apply no_ws_byte_tight; auto).
    pose proof (file_ref E eq_refl N) as RF. rewrite (SN N (le_n _)) in RF. destruct RF as (evs & EB & ->).
    destruct (sem_root E N ty body t R0 (SN N (le_n _))) as (fty & F & TF & ET). cbn [E new_env e_g] in TF.
    destruct (file_spans E (l_ws L) eq_refl LEN TI N t (SN N (le_n _))) as [SP AT].
    assert (FIT : fits (l_ws L) (tokss [t]) (with_text txt 0 toks)).
    { eapply (spans_fits E (l_ws L) eq_refl LEN 0 _ _ SP eq_refl _ []); [apply with_text_fst|reflexivity]. }
    pose proof (convert_ok (l_ws L) (file_binder L fty) (file_binder_le L fty LB) txt toks t AT ltac:(rewrite ET; eauto) ltac:(lia) FIT) as CO.
    unfold parse_file. rewrite LX. cbn [bind]. unfold def_parse, file_type. rewrite (proj2 (index_ok _ _ _ _) R0). cbn [bind].
    rewrite (proj2 (index_ok _ _ _ _) TF). cbn [bind]. fold E. rewrite EB. cbn [bind].
    assert (NF : ~ binder_fails (l_ws L) (file_binder L fty) (with_text txt 0 toks)).
    { intros (x & w & b & IN & _ & BAD). destruct (own_spaces_ok txt toks 0 w ltac:(lia) AL IN) as (o & OW). unfold file_binder in BAD.
      destruct (x =? fty); [apply (BAD _ eq_refl)|]. rewrite OW in BAD. apply (BAD _ eq_refl). }
    destruct (convert (l_ws L) (file_binder L fty) (as_text txt) toks (encs [t])) as [calls| |]; [|tauto|tauto]. cbn [bind].
    destruct CO as (T & used & rest & -> & _ & (ty1 & pre1 & b1 & cs & u & _ & -> & _) & _).
    assert (B := TreeProofs.build_ok [Node ty1 (cs ++ map raw_leaf u)] (Forall_cons (Node ty1 (cs ++ map raw_leaf u)) I (Forall_nil _))).
    cbn [flat_map] in B. rewrite !app_nil_r in B. unfold file_new. rewrite B. cbn [bind]. eauto. }
  destruct RET as (f & inc & R). exists f, inc, N. intros more. destruct (parse_file_mono L N (N + more) txt ltac:(lia)) as [Q|Q]; congruence.
Qed.
Print Assumptions C20_returns.

(** In particular the leaf lengths add up to the length of the input. *)
Theorem C20_spelled_length : forall g txt off l toks, spells g txt off l toks -> sum (map snd l) = sum (map tk_len toks).
Proof.
  intros g txt off l toks H. induction H as [|off t l ts H IH|off i j ty ctx gr l ts R T LE SU H IH]; cbn [map snd]; auto.
  - unfold sum in *. cbn [fold_right]. lia.
  - rewrite map_app, sum_app. fold (lens gr). rewrite LE. unfold sum in *. cbn [fold_right]. lia.
Qed.
Print Assumptions C20_spelled_length.

Lemma calc_no_contextual : forall i ty ctx, nth_error (g_rules calc_grammar) i <> Some (EContextual ty ctx).
Proof. intros i ty ctx. do 12 (destruct i as [|i]; [discriminate|]). destruct i; discriminate. Qed.

Example C20_example : exists f inc, parse_file calc 20 calc_text = Ok (f, inc)
  /\ progressing (l_lexer calc) /\ lex (l_lexer calc) calc_text = Ok (calc_toks calc_text)
  /\ no_ws_byte (l_g calc) (l_ws calc) calc_text (calc_toks calc_text)
  /\ (exists t, peg_file (new_env None (l_g calc) (l_ws calc) calc_text (calc_toks calc_text)) t).
Proof.
  do 2 eexists. split; [vm_compute; reflexivity|]. split; [exact calc_progress|]. split; [reflexivity|]. split.
  - intros i ty ctx H. exfalso. eapply calc_no_contextual; eauto.
  - exists calc_tree. apply C23_example.
Qed.

(** A contextual token ("> >", two tokens around a space) that contains whitespace breaks losslessness: on "> >>" the
    parser groups three tokens of total length 3 from a text of length 4, and the last byte is lost. *)
Definition angle : language :=
  mkLang (fun txt => match txt with 32 :: _ => mkTok 1 1 | _ => mkTok 2 1 end)
    (mkGrammar (seq 0 5) [EPub 3 1 false; EContextual 4 [62; 32; 62]]) (fun ty => ty =? 1) (fun _ _ _ => 0).

Theorem C20_contextual_whitespace_refuted : exists f inc,
  parse_file angle 10 [62; 32; 62; 62] = Ok (f, inc) /\ f_text f = [62; 32; 62; 62]
  /\ wf_file f (Node 3 [Leaf 4 3]) = (stores (f_nodes f) (Node 3 [Leaf 4 3]) /\ 3 = 4)
  /\ stores (f_nodes f) (Node 3 [Leaf 4 3]).
Proof.
  do 2 eexists. split; [vm_compute; reflexivity|]. split; [reflexivity|]. split; [reflexivity|]. exact (TreeProofs.layout_stores (Node 3 [Leaf 4 3])).
Qed.
Print Assumptions C20_contextual_whitespace_refuted.

(** ** C25: operators *)

(** Every tree built by a Pratt rule is a grouping that respects priorities ([groups]): infixes at the top level and
    down the left spine come from the table and have at least the minimal priority, and right operands are groupings with a
    higher minimal priority than the operator. *)
Theorem C25_groups : forall E rd e t p h q F h', nth_error (g_rules (e_g E)) e = Some (EPratt t) -> peg E rd e p h (Some (q, F)) h' ->
  exists x, shape E x F /\ groups E rd t 0 p x q.
Proof. intros E rd e t p h q F h' R H. destruct (pratt_ok E rd e t p h q F h' R H) as (x & A & B & _). eauto. Qed.
Print Assumptions C25_groups.

(** So the right operand of an infix of priority [p] is not itself an infix of priority [p] or less: operators of equal
    priority nest to the left. *)
Theorem C25_right_operand : forall E rd t m p x l op r q, groups E rd t m p (OInfix x l op (Some r)) q ->
  m <= ix_prio x /\ top_tighter (ix_prio x) r /\ exists p1, groups E rd t m p l p1.
Proof.
  intros E rd t m p x l op r q H. inversion H; subst. split; auto. split; [eapply groups_top; eauto|eauto].
Qed.
Print Assumptions C25_right_operand.

(** Left operands: if the operators do not depend on the node before them, no operator takes as its left operand an infix
    (or a prefix) with a right operand that binds less tightly. *)
Theorem C25_left_operand : forall E rd e t p h q F h', nth_error (g_rules (e_g E)) e = Some (EPratt t) -> memoryless E rd t ->
  peg E rd e p h (Some (q, F)) h' -> exists x, shape E x F /\ groups E rd t 0 p x q /\ left_tight x.
Proof. intros E rd e t p h q F h' R ML H. destruct (pratt_ok E rd e t p h q F h' R H) as (x & A & B & C & _). eauto. Qed.
Print Assumptions C25_left_operand.

(** The expression goes on as long as possible: no operator of the table matches where it ends. *)
Theorem C25_longest : forall E rd e t p h q F h', nth_error (g_rules (e_g E)) e = Some (EPratt t) -> peg E rd e p h (Some (q, F)) h' ->
  forall x, In x (pt_infixes t) -> exists h1 h2, peg E rd (ix_op x) q h1 None h2.
Proof. intros E rd e t p h q F h' R H. destruct (pratt_ok E rd e t p h q F h' R H) as (x & _ & _ & _ & D). exact D. Qed.
Print Assumptions C25_longest.

Lemma calc_memoryless : forall txt rd, memoryless (calc_env txt) rd calc_table.
Proof.
  intros txt rd x IX p h1 h2 r1 r2 h1' h2' P1 P2 ->.
  assert (TK : exists ty, rule (calc_env txt) (ix_op x) (EToken ty)) by (cbn in IX; destruct IX as [<-|[<-|[]]]; eexists; reflexivity).
  destruct TK as (ty & TK). apply peg_complete in P1, P2. destruct P1 as (N & P1). destruct P2 as (M & P2).
  specialize (P1 (S (N + M)) ltac:(lia)). specialize (P2 (S (N + M)) ltac:(lia)). cbn [sem] in P1, P2. unfold sem_step in P1, P2.
  rewrite (proj2 (index_ok _ _ _ _) TK) in P1, P2. cbn [bind] in P1, P2.
  apply bind_ok in P1. destruct P1 as (o & O1 & P1). rewrite O1 in P2. cbn [bind] in P2. destruct o as [[t0 q0]|]; [|injection P2 as <- _; reflexivity].
  apply bind_ok in P1. destruct P1 as (want & W & P1). rewrite W in P2. cbn [bind] in P2. destruct (want =? t0); [discriminate|]. injection P2 as <- _; reflexivity.
Qed.

(** "1 + 2*-3 " from the running example: the sum has a product as its right operand. *)
Example C25_example : exists h q F,
  peg (calc_env calc_text) (mkRd false (repeat false 16) (repeat None 16)) 2 (mkPos 0 6) (mkRg None None) (Some (q, F)) h
  /\ shape (calc_env calc_text)
       (OInfix (mkInfix 9 7 1 true) (OAtom [PNode 8 [] [PTok 2 1]]) [PTok 3 1]
          (Some (OInfix (mkInfix 10 8 2 true) (OAtom [PNode 8 [] [PTok 2 1]]) [PTok 4 1]
             (Some (OPrefix (mkPrefix 12 9 3) [PTok 13 1] (OAtom [PNode 8 [] [PTok 2 1]])))))) F
  /\ memoryless (calc_env calc_text) (mkRd false (repeat false 16) (repeat None 16)) calc_table.
Proof.
  do 3 eexists. split; [apply (sem_sound _ 20); vm_compute; reflexivity|]. split; [|apply calc_memoryless].
  apply sh_infix with (G := [PNode 10 [PNode 8 [] [PTok 2 1]] [PTok 4 1; PNode 12 [] [PTok 13 1; PNode 8 [] [PTok 2 1]]]]); [reflexivity|constructor|].
  apply sh_infix with (G := [PNode 12 [] [PTok 13 1; PNode 8 [] [PTok 2 1]]]); [reflexivity|constructor|].
  apply sh_prefix with (G := [PNode 8 [] [PTok 2 1]]); [reflexivity|constructor].
Qed.

(** ** C26: reordering events *)

(** The events of a forest in parsing order ([encs]) become the events of the same forest in tree order ([flats]). *)
Theorem C26_nesting : forall F, Forall attached F -> reshuffle (encs F) = Ok (flats F).
Proof.
  intros F H. apply reshuffle_ok. induction H as [|t F A _ IH]; cbn [all_attached]; auto.
Qed.
Print Assumptions C26_nesting.

(** The simplest case spelled out: a node with a forward parent becomes the first child of that parent. *)
Theorem C26_first_child : forall a b F G, Forall attached F -> Forall attached G ->
  reshuffle (EvStart a (Some (S (S (length (encs F))))) :: encs F ++ [EvEnd] ++ EvStart b None :: encs G ++ [EvEnd])
  = Ok (EvStart b None :: EvStart a None :: flats F ++ [EvEnd] ++ flats G ++ [EvEnd]).
Proof.
  intros a b F G HF HG. pose proof (C26_nesting [PNode b [PNode a [] F] G]) as H.
  assert (AA : forall L, Forall attached L -> all_attached L) by (intros L HL; induction HL; cbn [all_attached]; auto).
  assert (A : Forall attached [PNode b [PNode a [] F] G]).
  { constructor; [|constructor]. apply attached_node. split; [exact I|]. split; [|auto]. cbn [all_attached]. split; [|exact I].
    apply attached_node. split; [exact I|]. split; [exact I|]. auto. }
  specialize (H A). unfold encs, flats in *. cbn [flat_map enc flat length app] in H. rewrite Nat.add_0_r in H.
  repeat rewrite app_nil_r in H. repeat rewrite <- app_assoc in H. exact H.
Qed.
Print Assumptions C26_first_child.

(** The depth after a list of events, [None] if a closing event has no opening one. *)
Fixpoint depth (n : nat) (evs : list event) : option nat :=
  match evs with
  | [] => Some n
  | EvStart _ _ :: r => depth (S n) r
  | EvEnd :: r => match n with 0 => None | S m => depth m r end
  | _ :: r => depth n r
  end.

Lemma depth_flats : forall k F, length (flats F) <= k -> forall n r, depth n (flats F ++ r) = depth n r.
Proof.
  induction k as [|k IH]; intros F L n r; destruct F as [|t F]; try reflexivity.
  - rewrite flats_cons, app_length in L. destruct t; cbn in L; lia.
  - rewrite flats_cons in *. rewrite app_length in L. rewrite <- app_assoc. destruct t as [ty pre body|ty m|key body].
    + cbn [flat]. cbn [flat length] in L. rewrite !app_length in L. cbn [length] in L. fold (flats pre) in *. fold (flats body) in *.
      cbn [app depth]. rewrite <- !app_assoc. rewrite IH by lia. rewrite IH by lia. cbn [app depth]. apply IH. lia.
    + cbn [flat app depth]. apply IH. cbn in L. lia.
    + cbn [flat app depth]. cbn [flat length] in L. fold (flats body) in *. rewrite IH by lia. apply IH. lia.
Qed.

(** What comes out of reordering is balanced. *)
Theorem C26_balanced : forall F evs, Forall attached F -> reshuffle (encs F) = Ok evs -> depth 0 evs = Some 0.
Proof.
  intros F evs A H. rewrite C26_nesting in H by auto. injection H as <-. rewrite <- (app_nil_r (flats F)). rewrite (depth_flats _ F (le_n _)). reflexivity.
Qed.
Print Assumptions C26_balanced.

(** For any list of events whatever, reordering never loses, adds or reorders anything but opening events. *)
Definition not_start (e : event) : bool := match e with EvStart _ _ => false | _ => true end.

Lemma chase_starts : forall fuel evs i c, chase fuel evs i = Ok c -> Forall (fun x => exists ty fp, nth_error evs (fst x) = Some (EvStart ty fp)) c.
Proof.
  induction fuel as [|f IH]; intros evs i c H; cbn [chase] in H; [discriminate|]. apply bind_ok in H. destruct H as (e & IE & H). apply index_ok in IE.
  destruct e as [ty [d|]| | |]; try discriminate.
  - apply bind_ok in H. destruct H as (r & H1 & H2). injection H2 as <-. constructor; eauto.
  - injection H as <-. constructor; [|constructor]. eauto.
Qed.

Lemma reshuffle_keeps : forall es evs i holes out, (forall j, nth_error es j = nth_error evs (i + j)) ->
  Forall (fun h => exists ty fp, nth_error evs h = Some (EvStart ty fp)) holes ->
  reshuffle_from evs i holes es = Ok out -> filter not_start out = filter not_start es.
Proof.
  induction es as [|e es IH]; intros evs i holes out EQ HO H; cbn [reshuffle_from] in H; [injection H as <-; reflexivity|].
  assert (EQ' : forall j, nth_error es j = nth_error evs (S i + j)) by (intros j; specialize (EQ (S j)); rewrite Nat.add_succ_r in EQ; exact EQ).
  pose proof (EQ 0) as E0. rewrite Nat.add_0_r in E0. cbn [nth_error] in E0.
  destruct (match holes with h :: _ => h =? i | [] => false end) eqn:HH.
  - destruct holes as [|h holes]; [discriminate|]. apply Nat.eqb_eq in HH. subst h. inversion HO as [|? ? (ty & fp & N) HO']; subst.
    rewrite N in E0. injection E0 as ->. cbn [filter not_start]. eapply IH; eauto.
  - destruct e as [ty [d|]|ty n| |key n].
    + apply bind_ok in H. destruct H as (c & HC & H). apply bind_ok in H. destruct H as (r & HR & H). injection H as <-.
      rewrite filter_app. replace (filter not_start (opened c)) with (@nil event).
      2:{ unfold opened. generalize (rev c). intros l. induction l; cbn; auto. }
      cbn [app filter not_start]. eapply IH; [exact EQ'| |exact HR]. apply chase_starts in HC.
      assert (FA : Forall (fun h => exists ty fp, nth_error evs h = Some (EvStart ty fp)) (map fst c ++ holes)) by (apply Forall_app; split; [apply Forall_map; exact HC|exact HO]).
      destruct (map fst c ++ holes); [constructor|]. inversion FA; auto.
    + apply bind_ok in H. destruct H as (r & HR & H). injection H as <-. cbn [filter not_start]. eapply IH; eauto.
    + apply bind_ok in H. destruct H as (r & HR & H). injection H as <-. cbn [filter not_start]. f_equal. eapply IH; eauto.
    + apply bind_ok in H. destruct H as (r & HR & H). injection H as <-. cbn [filter not_start]. f_equal. eapply IH; eauto.
    + apply bind_ok in H. destruct H as (r & HR & H). injection H as <-. cbn [filter not_start]. f_equal. eapply IH; eauto.
Qed.

Theorem C26_keeps : forall evs out, reshuffle evs = Ok out -> filter not_start out = filter not_start evs.
Proof. intros evs out H. unfold reshuffle in H. eapply reshuffle_keeps; [|constructor|exact H]. reflexivity. Qed.
Print Assumptions C26_keeps.

Example C26_example :
  Forall attached [calc_tree]
  /\ reshuffle [EvStart 7 None; EvStart 8 (Some 3); EvToken 2 1; EvEnd; EvStart 9 None; EvToken 3 1; EvEnd; EvEnd]
     = Ok [EvStart 7 None; EvStart 9 None; EvStart 8 None; EvToken 2 1; EvEnd; EvToken 3 1; EvEnd; EvEnd].
Proof. split; [|reflexivity]. constructor; [|constructor]. cbn. tauto. Qed.

(** ** C27: whitespace *)

(** For every tree whose leaves fit the raw tokens and every binder that binds at most the whitespace it is shown: the
    builder calls describe a tree [T] placed over the tokens as [placed_root] says, and [T] uses up the tokens [used], each
    exactly once and in order. Nothing but trailing whitespace that the root does not bind can be left ([rest]). *)
Theorem C27_convert : forall is_ws binder txt toks ty pre body calls,
  (forall ty w b k, binder ty w b = Ok k -> k <= length w) ->
  attached (PNode ty pre body) -> lens toks <= length txt -> fits is_ws (tokss [PNode ty pre body]) (with_text txt 0 toks) ->
  convert is_ws binder (as_text txt) toks (encs [PNode ty pre body]) = Ok calls ->
  exists T used rest, calls = calls_of T /\ with_text txt 0 toks = used ++ rest
    /\ covers is_ws [PNode ty pre body] used [T]
    /\ placed_root is_ws binder (PNode ty pre body) (with_text txt 0 toks) T rest
    /\ Forall (fun t => is_ws (tk_ty (fst t)) = true) rest.
Proof.
  intros is_ws binder txt toks ty pre body calls BL AT LL FT H.
  pose proof (convert_ok is_ws binder BL txt toks (PNode ty pre body) AT ltac:(eauto) LL FT) as C. rewrite H in C.
  destruct C as (T & used & rest & A & B & C & D). exists T, used, rest. split; auto. split; auto. split; auto. split; auto.
  destruct C as (ty' & pre' & body' & cs & u & _ & _ & _ & W & _). apply Forall_app in W. apply W.
Qed.
Print Assumptions C27_convert.

(** In a parsed file nothing is left: the root has all leading and all trailing whitespace, so every raw token is
    used exactly once. *)
Theorem C27_file : forall L fuel txt f inc toks ty body t,
  progressing (l_lexer L) -> (forall ty sp b, l_binder L ty sp b <= length sp) ->
  nth_error (g_rules (l_g L)) 0 = Some (EPub ty body false) ->
  lex (l_lexer L) txt = Ok toks -> no_ws_byte (l_g L) (l_ws L) txt toks ->
  peg_file (new_env None (l_g L) (l_ws L) txt toks) t ->
  parse_file L fuel txt = Ok (f, inc) ->
  exists T fty, wf_file f T /\ nth_error (g_types (l_g L)) ty = Some fty
    /\ covers (l_ws L) [t] (with_text txt 0 toks) [T]
    /\ placed_root (l_ws L) (file_binder L fty) t (with_text txt 0 toks) T []
    /\ (exists cs, T = Node fty cs) /\ tlen T = length txt.
Proof.
  intros L fuel txt f inc toks ty body t PR LB R0 LX NB PT H. destruct (file_complete _ _ PT) as (N & SN).
  assert (H' : parse_file L (N + fuel) txt = Ok (f, inc)).
  { destruct (parse_file_mono L fuel (N + fuel) txt ltac:(lia)) as [Q|Q]; congruence. }
  destruct (parse_file_ok L (N + fuel) txt f inc ty body PR LB R0 H' toks LX NB ltac:(rewrite SN by lia; discriminate)) as (t' & T & fty & S1 & _ & _ & F1 & WF & TY & PL & CV & SP).
  rewrite SN in S1 by lia. injection S1 as <-. exists T, fty. split; auto. split; auto. split; auto. split; auto. split.
  - assert (ET : exists F, t = PNode fty [] F).
    { destruct (sem_root (new_env None (l_g L) (l_ws L) txt toks) (N + fuel) ty body t R0 (SN (N + fuel) ltac:(lia))) as (x & F & A & ->). cbn [new_env e_g] in A. rewrite TY in A. injection A as <-. eauto. }
    destruct ET as (F & ->). destruct PL as (a & b & c & cs & u & E1 & -> & _). injection E1 as <- _ _. eauto.
  - destruct WF as [_ WL]. rewrite F1 in WL. exact WL.
Qed.
Print Assumptions C27_file.

(** The running example, and a tree with trailing whitespace inside the root. *)
Example C27_example : exists f inc, parse_file calc 20 calc_text = Ok (f, inc)
  /\ fits calc_ws (tokss [calc_tree]) (with_text calc_text 0 (calc_toks calc_text))
  /\ wf_file f (Node 7 [Node 9 [Node 8 [Leaf 2 1]; Leaf 1 1; Leaf 3 1; Leaf 1 1;
                        Node 10 [Node 8 [Leaf 2 1]; Leaf 4 1; Node 12 [Leaf 13 1; Node 8 [Leaf 2 1]]]]; Leaf 1 1]).
Proof.
  do 2 eexists. split; [vm_compute; reflexivity|]. split.
  - assert (FG : forall l ty (t : rtok) ts, white calc_ws t = false -> fits calc_ws l ts -> fits calc_ws ((ty, 1) :: l) (t :: ts)).
    { intros l ty t ts W F. exact (fits_group calc_ws ty l [t] ts (Forall_cons _ W (Forall_nil _)) F). }
    cbn. repeat (first [apply fits_nil|apply FG; [reflexivity|]|apply fits_space; [reflexivity|]]).
  - split; [|reflexivity].
    exact (TreeProofs.layout_stores (Node 7 [Node 9 [Node 8 [Leaf 2 1]; Leaf 1 1; Leaf 3 1; Leaf 1 1;
                        Node 10 [Node 8 [Leaf 2 1]; Leaf 4 1; Node 12 [Leaf 13 1; Node 8 [Leaf 2 1]]]]; Leaf 1 1])).
Qed.

(** The root needs its own type for that: if the start rule is replaceable and gets replaced, the binder of the language
    decides about trailing whitespace, and what it does not bind is lost. *)
Definition replaced : language :=
  mkLang (l_lexer calc) (mkGrammar (seq 0 14) [EPub 7 1 true; EPubReplace 8 2; EToken 2]) calc_ws (fun _ _ _ => 0).

Theorem C27_replaced_root_refuted : exists f inc, parse_file replaced 10 [49; 32] = Ok (f, inc)
  /\ stores (f_nodes f) (Node 8 [Leaf 2 1]) /\ f_text f = [49; 32].
Proof.
  do 2 eexists. split; [vm_compute; reflexivity|]. split; [exact (TreeProofs.layout_stores (Node 8 [Leaf 2 1]))|reflexivity].
Qed.
Print Assumptions C27_replaced_root_refuted.
