(** Trees of the parser are derivations. *)
From Coq Require Import List Arith Bool Lia.
From Verif Require Import Base BaseFacts TextModel LexModel LexSpec GrammarModel ParserModel TreeSpec ForestSpec SemSpec PegSpec PegProofs PegFacts OccurProofs ConvertSpec DeriveSpec.
Import ListNotations.

Scheme derives_mind := Minimality for derives Sort Prop
  with sequence_mind := Minimality for sequence Sort Prop
  with repeated_mind := Minimality for repeated Sort Prop
  with operand_mind := Minimality for DeriveSpec.operand Sort Prop.
Combined Scheme derives_all from derives_mind, sequence_mind, repeated_mind, operand_mind.

(** A parse tree without its bookkeeping. *)
Fixpoint bared (t : ptree) : list dtree :=
  match t with
  | PNode ty pre body => [DNode ty (flat_map bared pre ++ flat_map bared body)]
  | PTok ty _ => [DLeaf ty]
  | PCached _ body => flat_map bared body
  end.
Definition bares (F : list ptree) : list dtree := flat_map bared F.
Lemma bares_app : forall F G, bares (F ++ G) = bares F ++ bares G.
Proof. intros. apply flat_map_app. Qed.
Lemma bares_node : forall ty F, bares [PNode ty [] F] = [DNode ty (bares F)].
Proof. reflexivity. Qed.
Lemma tokss_app : forall F G, tokss (F ++ G) = tokss F ++ tokss G.
Proof. intros. apply flat_map_app. Qed.

Lemma graft_bare : forall F t t', graft F t = Some t' -> exists x y, bared t = [x] /\ bared t' = [y] /\ grafted (bares F) x y.
Proof.
  intros F. fix IH 1. intros [ty pre b|ty n|k b] t' E; cbn [graft] in E; try discriminate E. destruct pre as [|x xs].
  - injection E as <-. do 2 eexists. split; [reflexivity|]. split; [reflexivity|]. apply gf_here.
  - destruct (graft F x) as [x'|] eqn:G; [|discriminate E]. injection E as <-. destruct (IH x x' G) as (u & v & A & B & C).
    exists (DNode ty (flat_map bared (x :: xs) ++ flat_map bared b)), (DNode ty (flat_map bared (x' :: xs) ++ flat_map bared b)).
    split; [reflexivity|]. split; [reflexivity|]. cbn [flat_map]. rewrite A, B. cbn [app]. apply gf_deeper. exact C.
Qed.
Lemma grafts_bare : forall F G FG, grafts F G = Some FG -> exists t t' R, bares G = t :: R /\ bares FG = t' :: R /\ grafted (bares F) t t'.
Proof.
  intros F [|t G] FG E; cbn [grafts] in E; [discriminate E|]. destruct (graft F t) as [t'|] eqn:X; [|discriminate E]. injection E as <-.
  destruct (graft_bare F t t' X) as (x & y & A & B & C). exists x, y, (bares G). split; [|split]; [| |exact C]; unfold bares; cbn [flat_map]; rewrite ?A, ?B; reflexivity.
Qed.
Lemma graft_tokss : forall F t t', graft F t = Some t' -> toks t' = tokss F ++ toks t.
Proof.
  intros F. fix IH 1. intros [ty pre b|ty n|k b] t' E; cbn [graft] in E; try discriminate E. destruct pre as [|x xs].
  - injection E as <-. reflexivity.
  - destruct (graft F x) as [x'|] eqn:G; [|discriminate E]. injection E as <-. cbn [toks flat_map]. rewrite (IH x x' G), <- !app_assoc. reflexivity.
Qed.
Lemma grafts_tokss : forall F G FG, grafts F G = Some FG -> tokss FG = tokss F ++ tokss G.
Proof.
  intros F [|t G] FG E; cbn [grafts] in E; [discriminate E|]. destruct (graft F t) as [t'|] eqn:X; [|discriminate E]. injection E as <-.
  unfold tokss. cbn [flat_map]. rewrite (graft_tokss F t t' X). unfold tokss. rewrite <- app_assoc. reflexivity.
Qed.

Section Peg.
  Variable g : grammar.
  Variable is_ws : nat -> bool.
  Variable txt : bytes.
  Variable raw : list token.
  Notation E := (new_env None g is_ws txt raw).
  Hypothesis PS : proper_spellings g is_ws.

  Lemma non_ws_solid : forall l off i o k, In (o, k) (non_ws_from is_ws off i l) -> exists t, i <= k /\ nth_error l (k - i) = Some t /\ is_ws (tk_ty t) = false.
  Proof.
    induction l as [|t l IH]; intros off i o k J; [destruct J|]. cbn [non_ws_from] in J.
    assert (R : In (o, k) (non_ws_from is_ws (off + tk_len t) (S i) l) -> exists x, i <= k /\ nth_error (t :: l) (k - i) = Some x /\ is_ws (tk_ty x) = false).
    { intros X. destruct (IH _ _ _ _ X) as (x & A & B & C). exists x. split; [lia|]. split; [|exact C]. replace (k - i) with (S (k - S i)) by lia. exact B. }
    destruct (is_ws (tk_ty t)) eqn:W; [exact (R J)|]. destruct J as [J|J]; [|exact (R J)]. injection J as <- <-.
    exists t. rewrite Nat.sub_diag. auto.
  Qed.
  Lemma tok_at_solid : forall k t, tok_at E k t -> is_ws (tk_ty t) = false.
  Proof.
    intros k t (o & i & A & B). cbn [e_idx e_toks new_env] in A, B. apply nth_error_In in A. destruct (non_ws_solid _ _ _ _ _ A) as (x & _ & X & W).
    rewrite Nat.sub_0_r in X. congruence.
  Qed.

  (** Every token is there and is not whitespace. *)
  Definition firm (F : list ptree) : Prop := Forall (fun x => is_ws (fst x) = false /\ 1 <= snd x) (tokss F).
  Lemma firm_nil : firm [].
  Proof. constructor. Qed.
  Lemma firm_app : forall F G, firm F -> firm G -> firm (F ++ G).
  Proof. intros F G A B. unfold firm. rewrite tokss_app. apply Forall_app. auto. Qed.
  Lemma firm_node : forall ty pre F, firm pre -> firm F -> firm [PNode ty pre F].
  Proof. intros ty pre F A B. unfold firm, tokss. cbn [flat_map toks]. rewrite app_nil_r. apply Forall_app. auto. Qed.
  Lemma firm_eat : forall p t q, eat E p t q -> firm [PTok t 1].
  Proof. intros p t q (_ & (x & T & <-) & _). constructor; [|constructor]. cbn. split; [exact (tok_at_solid _ _ T)|lia]. Qed.
  Lemma eats_firm : forall p T, eats E p T -> firm T /\ exists tys, bares T = map DLeaf tys.
  Proof.
    induction 1 as [p A|p t q F A B (IH & tys & IT)]; [split; [apply firm_nil|exists []; reflexivity]|].
    split; [exact (firm_app [PTok t 1] F (firm_eat _ _ _ A) IH)|]. exists (t :: tys). unfold bares. cbn [flat_map bared app map]. f_equal. exact IT.
  Qed.
  Lemma whole_pos : forall p len n q, whole E p len n q -> len <> 0 -> 1 <= n.
  Proof. intros p len n q H. destruct H; lia. Qed.

  Definition whole_toks (l : list (nat * nat)) : Prop := Forall (fun x => is_ws (fst x) = false /\ 1 <= snd x) l.
  Lemma flat_leafless : forall l, Forall (fun t => whole_toks (toks t) -> ntoks t = 0 -> Forall leafless (bared t)) l ->
    whole_toks (tokss l) -> ntokss l = 0 -> Forall leafless (bares l).
  Proof.
    induction 1 as [|y l Y _ IH]; intros FL NL; [constructor|]. unfold tokss in FL. cbn [flat_map] in FL. apply Forall_app in FL. rewrite ntokss_cons in NL.
    unfold bares. cbn [flat_map]. apply Forall_app. split; [apply Y; [exact (proj1 FL)|lia]|apply IH; [exact (proj2 FL)|lia]].
  Qed.
  Lemma firm_leafless : forall F, firm F -> ntokss F = 0 -> Forall leafless (bares F).
  Proof.
    intros F. apply flat_leafless. induction F as [|t F IHF]; constructor; [|exact IHF]. clear. induction t as [ty pre b HP HB|ty n|k b HB] using ptree_nest; intros W N.
    - cbn [toks] in W. apply Forall_app in W. rewrite ntoks_node, ntokss_app in N. cbn [bared]. constructor; [|constructor]. constructor.
      apply Forall_app. split; [apply (flat_leafless pre HP); [exact (proj1 W)|lia]|apply (flat_leafless b HB); [exact (proj2 W)|lia]].
    - inversion W as [|? ? (_ & L) _]; subst. cbn in L, N. lia.
    - cbn [bared]. exact (flat_leafless b HB W N).
  Qed.

  (** A pending replacement type is that of some rule. *)
  Definition known (h : regs) : Prop := forall i, h_repl h = Some i -> exists e b, grule g e (EPubReplace i b).
  Definition told (P : list dtree -> Prop) (h : regs) (r : option (pos * list ptree)) (h' : regs) : Prop :=
    known h -> known h' /\ match r with Some (_, F) => P (bares F) /\ firm F | None => True end.

  Lemma gbinds_of : forall l a b, binds E l a b -> gbinds g l a b.
  Proof. induction 1; [constructor|eapply gb_expr; eassumption|eapply gb_var; eassumption]. Qed.

  Lemma peg_derives_all :
    (forall rd e p h r h', peg E rd e p h r h' -> told (derives g false (r_args rd) e) h r h')
    /\ (forall l t b, among E l t b -> True)
    /\ (forall rd l p h r h', first_of E rd l p h r h' -> told (fun F => exists x, In x l /\ derives g false (r_args rd) x F) h r h')
    /\ (forall rd l p h n q F h', in_order E rd l p h n q F h' -> told (fun F => n <= length l /\ sequence g false (r_args rd) (firstn n l) F) h (Some (q, F)) h')
    /\ (forall rd b p h q F h', greedy E rd b p h q F h' -> told (repeated g false (r_args rd) b) h (Some (q, F)) h')
    /\ (forall rd f b sk p h r h', skipping E rd f b sk p h r h' -> firm sk -> forall tys, bares sk = map DLeaf tys ->
          told (fun F => exists S G, F = S ++ G /\ skipped S /\ derives g false (r_args rd) b G) h r h')
    /\ (forall rd t m p h r h', climbing E rd t m p h r h' -> told (DeriveSpec.operand g false (r_args rd) t) h r h')
    /\ (forall rd t l p h r h', prefixed E rd t l p h r h' -> incl l (pt_prefixes t) -> told (DeriveSpec.operand g false (r_args rd) t) h r h')
    /\ (forall rd t m fresh lhs p h r h', chain E rd t m fresh lhs p h r h' -> DeriveSpec.operand g false (r_args rd) t (bares lhs) -> firm lhs ->
          told (DeriveSpec.operand g false (r_args rd) t) h (Some r) h')
    /\ (forall rd t l fresh lhs p h r h', infixed E rd t l fresh lhs p h r h' -> incl l (pt_infixes t) -> DeriveSpec.operand g false (r_args rd) t (bares lhs) -> firm lhs ->
          told (DeriveSpec.operand g false (r_args rd) t) h r h').
  Proof.
    apply peg_all.
    - intros rd e ty t body p h q F h1 R T _ IH K. destruct (IH K) as (K1 & D & M). split; [exact K1|]. split; [exact (d_pub g false _ e ty t body false _ R T D)|apply firm_node; [apply firm_nil|exact M]].
    - intros rd e ty t body p h q F h1 t' R T _ IH X K. destruct (IH ltac:(intros i Z; discriminate Z)) as (K1 & D & M). split; [intros i Z; discriminate Z|].
      split; [|apply firm_node; [apply firm_nil|exact M]]. destruct (h_repl h1) as [i|] eqn:HR; [|subst t'; exact (d_pub g false _ e ty t body true _ R T D)].
      destruct X as (_ & T'). destruct (K1 i HR) as (e' & b' & R'). exact (d_pub_replaced g false _ e ty body i b' e' t' _ R R' T' D).
    - intros rd e ty t body rp p h h1 R T _ IH K. split; [|exact I]. apply IH. destruct rp; [intros i Z; discriminate Z|exact K].
    - intros rd e ty body p h q F h1 R _ IH K. destruct (IH K) as (K1 & D & M). split; [|split; [exact (d_replace g false _ e ty body _ R D)|exact M]].
      intros i Z. cbn in Z. injection Z as <-. eauto.
    - intros rd e ty body p h h1 R _ IH K. exact (IH K).
    - intros rd e l p h r h1 R _ IH K. destruct (IH K) as (K1 & Z). split; [exact K1|]. destruct r as [(q & F)|]; [|exact I]. destruct Z as ((x & J & D) & M).
      split; [exact (d_or g false _ e l x _ R J D)|exact M].
    - intros rd e l c p h q F h1 R _ _ IH K. destruct (IH K) as (K1 & (_ & D) & M). split; [exact K1|]. rewrite firstn_all in D. split; [exact (d_and g false _ e l c _ R D)|exact M].
    - intros rd e l c p h n q F h1 R L1 L2 _ IH K. destruct (IH K) as (K1 & (_ & D) & M). split; [exact K1|]. split; [rewrite bares_app; exact (d_committed g false _ e l c n _ eq_refl R L1 L2 D)|].
      apply firm_app; [exact M|]. apply firm_node; apply firm_nil.
    - intros rd e l c p h n q F h1 R L _ IH K. split; [exact (proj1 (IH K))|exact I].
    - intros rd e ty t p h q R T A K. split; [exact K|]. split; [exact (d_token g false _ e ty t R T)|exact (firm_eat _ _ _ A)].
    - intros rd e ty t p h t' q _ _ _ _ K. exact (conj K I).
    - intros rd e ty p h _ _ K. exact (conj K I).
    - intros rd e ty t text p h n q R T _ _ W K. split; [exact K|]. split; [exact (d_contextual g false _ e ty text t R T)|]. destruct (PS e ty text R) as (NE & NW).
      constructor; [|constructor]. cbn. split; [exact (NW t T)|]. apply (whole_pos _ _ _ _ W). destruct text; [contradiction|discriminate].
    - intros rd e ty text p h _ _ _ _ K. exact (conj K I).
    - intros rd e ty text p h _ _ _ K. exact (conj K I).
    - intros rd e ty text p h _ _ K. exact (conj K I).
    - intros rd e t p h q R A K. split; [exact K|]. split; [exact (d_any g false _ e t R)|exact (firm_eat _ _ _ A)].
    - intros rd e p h _ _ K. exact (conj K I).
    - intros rd e p h R _ K. split; [exact K|]. split; [exact (d_eof g false _ e R)|apply firm_nil].
    - intros rd e p h _ _ K. exact (conj K I).
    - intros rd e b p h (q, F) h1 R _ IH K. destruct (IH K) as (K1 & D & M). split; [exact K1|]. split; [exact (d_opt g false _ e b _ R D)|exact M].
    - intros rd e b p h h1 R _ IH K. split; [exact (proj1 (IH K))|]. split; [exact (d_opt_none g false _ e b R)|apply firm_nil].
    - intros rd e b p h h1 R _ IH K. split; [exact (proj1 (IH K))|]. split; [exact (d_not g false _ e b R)|apply firm_nil].
    - intros rd e b p h x h1 R _ IH K. exact (conj (proj1 (IH K)) I).
    - intros rd e b p h q F h1 R _ IH K. destruct (IH K) as (K1 & D & M). split; [exact K1|]. split; [exact (d_rep g false _ e b _ R D)|exact M].
    - intros rd e f b p h r h1 R _ IH K. destruct (IH firm_nil [] eq_refl K) as (K1 & Z). split; [exact K1|]. destruct r as [(q & F)|]; [|exact I].
      destruct Z as ((S & G & EF & SK & D) & M). split; [|exact M]. rewrite EF. exact (d_skip g false _ e f b S G R ltac:(discriminate) SK D).
    - intros rd e l b p h h1 _ _ IH K. exact (conj (proj1 (IH K)) I).
    - intros rd e l b p h c F0 h1 r left_ F h2 T R PL IHL _ IHB X EA K. destruct (IHL K) as (K1 & DL & ML). destruct (IHB K1) as (K2 & Z). split; [exact K2|].
      destruct (eats_firm _ _ EA) as (MT & tys & BT). destruct r as [(q' & F')|].
      + injection X as -> ->. destruct Z as (D & M). destruct T as [|x T]; [split; [|exact M]|split].
        * rewrite <- (app_nil_r (bares F)). exact (d_layer g false _ e l b _ [] R D ltac:(discriminate) (or_introl eq_refl)).
        * rewrite bares_app. apply (d_layer g false _ e l b _ _ R D); [discriminate|]. right. exists tys. rewrite <- BT. reflexivity.
        * apply firm_app; [exact M|]. apply firm_node; [apply firm_nil|exact MT].
      + destruct X as (-> & ->). destruct T as [|x T]; [split; [|apply firm_nil]|split].
        * apply (d_layer_empty g false _ e l b (bares F0) R DL). apply firm_leafless; [exact ML|].
          apply (proj1 (good_all E)) in PL. destruct PL as ((N & _) & _). inversion EA as [? AE|]; subst. unfold at_end in AE. cbn in AE. lia.
        * change (derives g false (r_args rd) e [DNode ERROR (bares (x :: T))]). rewrite BT. exact (d_layer_skipped g false _ e l b tys eq_refl R).
        * apply firm_node; [apply firm_nil|exact MT].
    - intros rd e c b p h r h1 R _ _ IH K. destruct (IH K) as (K1 & Z). split; [exact K1|]. destruct r as [(q & F)|]; [|exact I]. split; [exact (d_enter g false _ e c b _ R (proj1 Z))|exact (proj2 Z)].
    - intros rd e c b p h r h1 R _ _ IH K. destruct (IH K) as (K1 & Z). split; [exact K1|]. destruct r as [(q & F)|]; [|exact I]. split; [exact (d_exit g false _ e c b _ R (proj1 Z))|exact (proj2 Z)].
    - intros rd e c p h R _ K. split; [exact K|]. split; [exact (d_is_in g false _ e c R)|apply firm_nil].
    - intros rd e c p h _ _ K. exact (conj K I).
    - intros rd e b l a p h r h1 R B _ IH K. destruct (IH K) as (K1 & Z). split; [exact K1|]. destruct r as [(q & F)|]; [|exact I].
      split; [exact (d_call g false _ e b l a _ R (gbinds_of _ _ _ B) (proj1 Z))|exact (proj2 Z)].
    - intros rd e i e' p h r h1 R B _ IH K. destruct (IH K) as (K1 & Z). split; [exact K1|]. destruct r as [(q & F)|]; [|exact I]. split; [exact (d_var g false _ e i e' _ R B (proj1 Z))|exact (proj2 Z)].
    - intros rd e tys p h t R _ _ _ K. split; [exact K|]. split; [exact (d_prev_is g false _ e tys R)|apply firm_nil].
    - intros rd e tys p h t _ _ _ _ K. exact (conj K I).
    - intros rd e tys p h _ _ K. exact (conj K I).
    - intros rd e a b p h q F h1 q2 G h2 FG R _ IA _ _ IB _ GR K. destruct (IA K) as (K1 & DA & MA). destruct (IB K1) as (K2 & DB & MB). split; [exact K2|].
      destruct (grafts_bare _ _ _ GR) as (t & t' & S & EG & EFG & X). rewrite EG in DB. rewrite EFG. split; [exact (d_inject g false _ e a b _ t t' S R DA DB X)|].
      unfold firm. rewrite (grafts_tokss _ _ _ GR). apply Forall_app. exact (conj MA MB).
    - intros rd e a b p h F h1 q2 G h2 R _ IA _ IB K. destruct (IA K) as (K1 & DA & MA). destruct (IB K1) as (K2 & DB & MB). split; [exact K2|].
      rewrite bares_app. split; [exact (d_inject_empty g false _ e a b _ _ R DA DB)|exact (firm_app _ _ MA MB)].
    - intros rd e a b p h h1 _ _ IH K. exact (IH K).
    - intros rd e a b p h q F h1 h2 _ _ IA _ IB K. exact (IB (proj1 (IA K))).
    - intros rd e b p h q F h1 R _ IH K. destruct (IH K) as (K1 & D & M). split; [exact K1|]. unfold bares, firm, tokss. cbn [flat_map bared toks]. rewrite !app_nil_r.
      split; [exact (d_cached g false _ e b _ R D)|exact M].
    - intros rd e b p h h1 _ _ IH K. exact (IH K).
    - intros rd e t p h r h1 R _ IH K. destruct (IH K) as (K1 & Z). split; [exact K1|]. destruct r as [(q & F)|]; [|exact I]. split; [exact (d_pratt g false _ e t _ R (proj1 Z))|exact (proj2 Z)].
    - exact (fun _ => I).
    - intros; exact I.
    - intros; exact I.
    (* first_of *)
    - intros rd p h K. exact (conj K I).
    - intros rd a l p h (q, F) h1 _ IH K. destruct (IH K) as (K1 & D & M). split; [exact K1|]. split; [exists a; split; [left; reflexivity|exact D]|exact M].
    - intros rd a l p h h1 r h2 _ IA _ IL K. destruct (IL (proj1 (IA K))) as (K2 & Z). split; [exact K2|]. destruct r as [(q & F)|]; [|exact I].
      destruct Z as ((x & J & D) & M). split; [exists x; split; [right; exact J|exact D]|exact M].
    (* in_order *)
    - intros rd p h K. split; [exact K|]. split; [split; [apply le_n|apply s_nil]|apply firm_nil].
    - intros rd a l p h h1 _ IH K. split; [exact (proj1 (IH K))|]. split; [split; [apply Nat.le_0_l|apply s_nil]|apply firm_nil].
    - intros rd a l p h p1 F h1 n q G h2 _ IA _ IL K. destruct (IA K) as (K1 & DA & MA). destruct (IL K1) as (K2 & (LE & DL) & ML). split; [exact K2|].
      split; [split; [cbn [length]; lia|]|exact (firm_app _ _ MA ML)]. rewrite bares_app. cbn [firstn]. apply s_cons; assumption.
    (* greedy *)
    - intros rd b p h h1 _ IH K. split; [exact (proj1 (IH K))|]. split; [apply m_nil|apply firm_nil].
    - intros rd b p h p1 F h1 q G h2 _ IA _ IL K. destruct (IA K) as (K1 & DA & MA). destruct (IL K1) as (K2 & DL & ML). split; [exact K2|].
      split; [|exact (firm_app _ _ MA ML)]. rewrite bares_app. apply m_cons; assumption.
    (* skipping *)
    - intros rd f b sk p h x h1 q F h2 _ IF _ IB MS tys BS K. destruct (IB (proj1 (IF K))) as (K2 & D & M). split; [exact K2|]. destruct sk as [|y sk].
      + split; [exists [], (bares F); split; [reflexivity|split; [left; reflexivity|exact D]]|exact M].
      + split; [|change (error_node (y :: sk) :: F) with ([error_node (y :: sk)] ++ F); apply firm_app; [apply firm_node; [apply firm_nil|exact MS]|exact M]].
        exists [DNode ERROR (map DLeaf tys)], (bares F). split; [|split; [right; exists tys; reflexivity|exact D]]. rewrite <- BS. reflexivity.
    - intros rd f b sk p h h1 t q r h2 _ IF A _ IS MS tys BS K. apply (IS (firm_app _ _ MS (firm_eat _ _ _ A)) (tys ++ [t])); [|exact (proj1 (IF K))]. rewrite bares_app, BS, map_app. reflexivity.
    - intros rd f b sk p h x h1 h2 t q r h3 _ IF _ IB A _ IS MS tys BS K. apply (IS (firm_app _ _ MS (firm_eat _ _ _ A)) (tys ++ [t])); [|exact (proj1 (IB (proj1 (IF K))))]. rewrite bares_app, BS, map_app. reflexivity.
    - intros rd f b sk p h h1 _ IF _ _ tys _ K. exact (conj (proj1 (IF K)) I).
    - intros rd f b sk p h x h1 h2 _ IF _ IB _ _ tys _ K. exact (conj (proj1 (IB (proj1 (IF K)))) I).
    (* climbing *)
    - intros rd t m p h p1 F h1 r h2 _ IA _ IC K. destruct (IA K) as (K1 & (x & J & D) & M). exact (IC (o_atom g false _ t x _ J D) M K1).
    - intros rd t m p h h0 p1 F h1 r h2 _ IA _ IP _ IC K. destruct (IP (incl_refl _) (proj1 (IA K))) as (K1 & D & M). exact (IC D M K1).
    - intros rd t m p h h0 h1 _ IA _ IP K. exact (IP (incl_refl _) (proj1 (IA K))).
    (* prefixed *)
    - intros rd t p h _ K. exact (conj K I).
    - intros rd t x l p h ty p1 F h1 q G h2 T _ IA _ IC J K. destruct (IA K) as (K1 & DA & MA). destruct (IC K1) as (K2 & DC & MC). split; [exact K2|].
      split; [|apply firm_node; [apply firm_nil|exact (firm_app _ _ MA MC)]]. rewrite bares_node, bares_app. exact (o_prefix g false _ t x ty _ _ (J x (or_introl eq_refl)) T DA DC).
    - intros rd t x l p h ty p1 F h1 h2 r h3 T _ IA _ IC _ IP J K. exact (IP (fun y Y => J y (or_intror Y)) (proj1 (IC (proj1 (IA K))))).
    - intros rd t x l p h ty h1 r h2 T _ IA _ IP J K. exact (IP (fun y Y => J y (or_intror Y)) (proj1 (IA K))).
    (* chain *)
    - intros rd t m fresh lhs p h h1 _ II D M K. assert (J : incl (infixes t m) (pt_infixes t)) by (intros y Y; apply filter_In in Y; exact (proj1 Y)).
      split; [exact (proj1 (II J D M K))|]. exact (conj D M).
    - intros rd t m fresh lhs p h q F h1 r h2 _ II _ IC D M K. assert (J : incl (infixes t m) (pt_infixes t)) by (intros y Y; apply filter_In in Y; exact (proj1 Y)).
      destruct (II J D M K) as (K1 & D1 & M1). exact (IC D1 M1 K1).
    (* infixed *)
    - intros rd t fresh lhs p h _ _ _ K. exact (conj K I).
    - intros rd t x l fresh lhs p h ty h1 r h2 T _ IA _ II J D M K. exact (II (fun y Y => J y (or_intror Y)) D M (proj1 (IA K))).
    - intros rd t x l fresh lhs p h ty p1 F h1 T _ IA _ RH J D M K. destruct (IA K) as (K1 & DA & MA). split; [exact K1|]. split; [|apply firm_node; assumption].
      exact (o_postfix g false _ t x ty _ _ (J x (or_introl eq_refl)) RH T D DA).
    - intros rd t x l fresh lhs p h ty p1 F h1 q G h2 T _ IA _ RH _ IC J D M K. destruct (IA K) as (K1 & DA & MA). destruct (IC K1) as (K2 & DC & MC). split; [exact K2|].
      split; [|apply firm_node; [exact M|exact (firm_app _ _ MA MC)]]. unfold bares at 1. cbn [flat_map bared app]. fold (bares lhs). fold (bares (F ++ G)). rewrite bares_app.
      exact (o_binary g false _ t x ty _ _ _ (J x (or_introl eq_refl)) RH T D DA DC).
    - intros rd t x l fresh lhs p h ty p1 F h1 h2 T _ IA _ RH _ IC J D M K. destruct (IA K) as (K1 & DA & MA). split; [exact (proj1 (IC K1))|].
      split; [|apply firm_node; [exact M|apply firm_app; [exact MA|apply firm_node; apply firm_nil]]]. unfold bares at 1. cbn [flat_map bared app]. fold (bares lhs). fold (bares (F ++ [error_node []])). rewrite bares_app.
      exact (o_no_rhs g false _ t x ty _ _ eq_refl (J x (or_introl eq_refl)) RH T D DA).
  Qed.
End Peg.

(** ** Without errors, strictly *)
Section Strict.
  Variable g : grammar.

  Lemma clean_error : forall cs G, ~ Forall clean (DNode ERROR cs :: G).
  Proof. intros cs G C. inversion C as [|? ? N _]; subst. inversion N; congruence. Qed.
  Lemma clean_skipped : forall S, skipped S -> Forall clean S -> S = [].
  Proof. intros S [->|(tys & ->)] C; [reflexivity|destruct (clean_error _ _ C)]. Qed.
  Lemma clean_node : forall ty cs, Forall clean [DNode ty cs] -> Forall clean cs.
  Proof. intros ty cs C. inversion C as [|? ? N _]; subst. inversion N; assumption. Qed.
  Lemma grafted_clean : forall F t t', grafted F t t' -> clean t' -> Forall clean F /\ clean t.
  Proof.
    induction 1 as [ty cs|ty x y cs G IH]; intros C; inversion C as [|? ? NE L]; subst.
    - apply Forall_app in L. split; [exact (proj1 L)|constructor; [exact NE|exact (proj2 L)]].
    - inversion L as [|? ? CY CS]; subst. destruct (IH CY) as (A & B). split; [exact A|]. constructor; [exact NE|]. constructor; assumption.
  Qed.

  Lemma derives_strict_all : forall s,
    (forall a e F, derives g s a e F -> Forall clean F -> derives g true a e F)
    /\ (forall a l F, sequence g s a l F -> Forall clean F -> sequence g true a l F)
    /\ (forall a b F, repeated g s a b F -> Forall clean F -> repeated g true a b F)
    /\ (forall a t F, DeriveSpec.operand g s a t F -> Forall clean F -> DeriveSpec.operand g true a t F).
  Proof.
    apply (derives_all g (fun _ a e F => Forall clean F -> derives g true a e F) (fun _ a l F => Forall clean F -> sequence g true a l F)
      (fun _ a b F => Forall clean F -> repeated g true a b F) (fun _ a t F => Forall clean F -> DeriveSpec.operand g true a t F)).
    - intros s a e ty t body rp F R T _ IH C. exact (d_pub g true _ _ _ _ _ _ _ R T (IH (clean_node _ _ C))).
    - intros s a e ty body ty' body' e' t F R R' T _ IH C. exact (d_pub_replaced g true _ _ _ _ _ _ _ _ _ R R' T (IH (clean_node _ _ C))).
    - intros s a e ty body F R _ IH C. exact (d_replace g true _ _ _ _ _ R (IH C)).
    - intros s a e l x F R J _ IH C. exact (d_or g true _ _ _ _ _ R J (IH C)).
    - intros s a e l c F R _ IH C. exact (d_and g true _ _ _ _ _ R (IH C)).
    - intros s a e l c n F _ _ _ _ _ _ C. apply Forall_app in C. destruct (clean_error _ _ (proj2 C)).
    - intros s a e ty t R T C. exact (d_token g true _ _ _ _ R T).
    - intros s a e ty text t R T C. exact (d_contextual g true _ _ _ _ _ R T).
    - intros s a e t R C. exact (d_any g true _ _ _ R).
    - intros s a e R C. exact (d_eof g true _ _ R).
    - intros s a e b R C. exact (d_not g true _ _ _ R).
    - intros s a e c R C. exact (d_is_in g true _ _ _ R).
    - intros s a e l R C. exact (d_prev_is g true _ _ _ R).
    - intros s a e b F R _ IH C. exact (d_opt g true _ _ _ _ R (IH C)).
    - intros s a e b R C. exact (d_opt_none g true _ _ _ R).
    - intros s a e b F R _ IH C. exact (d_rep g true _ _ _ _ R (IH C)).
    - intros s a e f b S F R _ SK _ IH C. apply Forall_app in C. apply (d_skip g true _ _ f b S F R); [intros _; exact (clean_skipped S SK (proj1 C))|exact SK|exact (IH (proj2 C))].
    - intros s a e l b F S R _ IH _ SK C. apply Forall_app in C. apply (d_layer g true _ _ l b F S R); [exact (IH (proj1 C))|intros _; exact (clean_skipped S SK (proj2 C))|exact SK].
    - intros s a e l b G R D _ LL C. exact (d_layer_empty g true _ _ l b G R D LL).
    - intros s a e l b tys _ R C. destruct (clean_error _ _ C).
    - intros s a e c b F R _ IH C. exact (d_enter g true _ _ _ _ _ R (IH C)).
    - intros s a e c b F R _ IH C. exact (d_exit g true _ _ _ _ _ R (IH C)).
    - intros s a e b l a' F R B _ IH C. exact (d_call g true _ _ _ _ _ _ R B (IH C)).
    - intros s a e i x F R B _ IH C. exact (d_var g true _ _ _ _ _ R B (IH C)).
    - intros s a e x y F t t' G R _ IX _ IY GR C. inversion C as [|? ? C1 C2]; subst. destruct (grafted_clean _ _ _ GR C1) as (CF & CT).
      exact (d_inject g true _ _ _ _ _ _ _ _ R (IX CF) (IY (Forall_cons _ CT C2)) GR).
    - intros s a e x y F G R _ IX _ IY C. apply Forall_app in C. exact (d_inject_empty g true _ _ _ _ _ _ R (IX (proj1 C)) (IY (proj2 C))).
    - intros s a e b F R _ IH C. exact (d_cached g true _ _ _ _ R (IH C)).
    - intros s a e t F R _ IH C. exact (d_pratt g true _ _ _ _ R (IH C)).
    - intros s a _. apply s_nil.
    - intros s a x l F G _ IX _ IL C. apply Forall_app in C. exact (s_cons g true _ _ _ _ _ (IX (proj1 C)) (IL (proj2 C))).
    - intros s a b _. apply m_nil.
    - intros s a b F G _ IX _ IL C. apply Forall_app in C. exact (m_cons g true _ _ _ _ (IX (proj1 C)) (IL (proj2 C))).
    - intros s a t x F J _ IH C. exact (o_atom g true _ _ _ _ J (IH C)).
    - intros s a t x ty F G J T _ IF _ IG C. apply clean_node, Forall_app in C. exact (o_prefix g true _ _ _ _ _ _ J T (IF (proj1 C)) (IG (proj2 C))).
    - intros s a t x ty L F J RH T _ IL _ IF C. apply clean_node, Forall_app in C. exact (o_postfix g true _ _ _ _ _ _ J RH T (IL (proj1 C)) (IF (proj2 C))).
    - intros s a t x ty L F G J RH T _ IL _ IF _ IG C. apply clean_node, Forall_app in C. destruct C as (CL & C). apply Forall_app in C.
      exact (o_binary g true _ _ _ _ _ _ _ J RH T (IL CL) (IF (proj1 C)) (IG (proj2 C))).
    - intros s a t x ty L F _ _ _ _ _ _ _ _ C. apply clean_node, Forall_app in C. destruct C as (_ & C). apply Forall_app in C. destruct (clean_error _ _ (proj2 C)).
  Qed.
End Strict.

(** ** Whitespace *)
Lemma covers_bare : forall is_ws F ts cs, covers is_ws F ts cs -> firm is_ws F -> flat_map (bare is_ws) cs = bares F.
Proof.
  intros is_ws F ts cs H. induction H as [|F w ts cs W _ IH|ty gr F ts cs _ _ IH|ty pre body F ts1 cs1 ts cs _ IN _ IH|k body F ts cs _ IH]; intros M.
  - reflexivity.
  - cbn [flat_map raw_leaf bare]. unfold white in W. rewrite W. exact (IH M).
  - unfold firm, tokss in M. cbn [flat_map toks app] in M. inversion M as [|? ? (N & _) M']; subst. cbn in N. cbn [flat_map bare]. rewrite N.
    unfold bares. cbn [flat_map bared app]. f_equal. exact (IH M').
  - unfold firm, tokss in M. cbn [flat_map toks] in M. apply Forall_app in M. destruct M as (M1 & M2). fold (tokss pre) in M1. fold (tokss body) in M1. rewrite <- tokss_app in M1.
    cbn [flat_map bare]. rewrite (IN M1), (IH M2), bares_app. reflexivity.
  - unfold firm, tokss in M. cbn [flat_map toks] in M. rewrite (IH ltac:(unfold firm; rewrite tokss_app; exact M)), bares_app. reflexivity.
Qed.

(** ** Files *)
Lemma pub_node : forall g s a e F ty b rp, derives g s a e F -> grule g e (EPub ty b rp) -> exists t G, F = [DNode t G].
Proof. intros g s a e F ty b rp D R. unfold grule in R. destruct D; unfold grule in *; try congruence; eauto. Qed.

Lemma file_derivation : forall g is_ws txt raw t ty b rp, proper_spellings g is_ws -> grule g 0 (EPub ty b rp) -> peg_file (new_env None g is_ws txt raw) t ->
  firm is_ws [t] /\ exists d, bares [t] = [d] /\ derivation g false d.
Proof.
  intros g is_ws txt raw t ty b rp PS R0 P. destruct (peg_derives_all g is_ws txt raw PS) as (A & _).
  assert (K0 : known g (mkRg None None)) by (intros i Z; discriminate Z).
  destruct P as [q t h H _|q ty' pre body h T H _ EA]; destruct (A _ _ _ _ _ _ H K0) as (_ & D & M).
  - split; [exact M|]. destruct (pub_node _ _ _ _ _ _ _ _ D R0) as (u & G & B). rewrite B in D |- *. eexists. split; [reflexivity|]. exact (dv_start g false _ D).
  - destruct (eats_firm g is_ws txt raw _ _ EA) as (MT & tys & BT). split.
    + unfold firm, tokss in M |- *. cbn [flat_map toks] in M |- *. rewrite app_nil_r in *. rewrite flat_map_app, app_assoc. apply Forall_app. split; [exact M|].
      cbn [error_node flat_map toks app]. rewrite app_nil_r. exact MT.
    + exists (DNode ty' ((flat_map bared pre ++ flat_map bared body) ++ [DNode ERROR (map DLeaf tys)])). split; [|exact (dv_rest g false ty' _ tys eq_refl D)].
      rewrite <- BT. unfold bares at 1. cbn [flat_map bared app]. rewrite flat_map_app, app_assoc. reflexivity.
Qed.

Lemma derivation_strict : forall g d, derivation g false d -> clean d -> derivation g true d.
Proof.
  intros g d [t D|ty cs tys _ D] C.
  - apply dv_start. exact (proj1 (derives_strict_all g false) _ _ _ D (Forall_cons _ C (Forall_nil _))).
  - inversion C as [|? ? _ CS]; subst. apply Forall_app in CS. destruct (clean_error _ _ (proj2 CS)).
Qed.
