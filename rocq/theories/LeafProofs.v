(** The leaves of a parsed file spell out the tokens of the lexer. *)
From Coq Require Import List Arith Bool Lia.
From Verif Require Import Base BaseFacts TextModel LexModel LexSpec LexProofs GrammarModel ParserModel TreeSpec ForestSpec SpanSpec SpanProofs
  ConvertSpec ConvertProofs LeafSpec.
Import ListNotations.

Section Leaves.
  Variable E : env.
  Variable is_ws : nat -> bool.
  Hypothesis IDX : e_idx E = non_ws is_ws (e_toks E).
  Notation sp := (spells (e_g E) (e_text E)).

  Lemma idx_here : forall a t b, e_toks E = a ++ t :: b -> is_ws (tk_ty t) = false ->
    nth_error (e_idx E) (nw is_ws a) = Some (lens a, length a).
  Proof.
    intros a t b EQ W. rewrite IDX, EQ. unfold non_ws.
    assert (G : forall a off i, nth_error (non_ws_from is_ws off i (a ++ t :: b)) (nw is_ws a) = Some (off + lens a, i + length a)).
    { clear a EQ. induction a as [|x a IH]; intros off i; cbn [app non_ws_from].
      - rewrite W. cbn. rewrite !Nat.add_0_r. reflexivity.
      - unfold nw. cbn [filter length]. rewrite lens_cons. destruct (is_ws (tk_ty x)); cbn [negb length nth_error]; fold (nw is_ws a); rewrite IH; f_equal; f_equal; lia. }
    rewrite G. reflexivity.
  Qed.

  Lemma nw_white : forall l, Forall (fun t => is_ws (tk_ty t) = true) l -> nw is_ws l = 0.
  Proof. induction 1 as [|t l H _ IH]; [reflexivity|]. unfold nw in *. cbn. rewrite H. exact IH. Qed.
  Lemma nw_solid : forall l, Forall (fun t => is_ws (tk_ty t) = false) l -> nw is_ws l = length l.
  Proof. induction 1 as [|t l H _ IH]; [reflexivity|]. unfold nw in *. cbn. rewrite H. cbn. f_equal. exact IH. Qed.

  Lemma sub_mid : forall (a g b : list token), sub (length a) (length a + length g) (a ++ g ++ b) = g.
  Proof.
    intros. unfold sub. rewrite skipn_app, skipn_all, Nat.sub_diag. cbn [skipn app]. replace (length a + length g - length a) with (length g) by lia.
    rewrite firstn_app, firstn_all, Nat.sub_diag, firstn_O, app_nil_r. reflexivity.
  Qed.

  Lemma covers_spells : forall F ts cs, covers is_ws F ts cs -> forall a b l k', e_toks E = a ++ map fst ts ++ b ->
    spans E (nw is_ws a) (tokss F ++ l) k' ->
    spans E (nw is_ws (a ++ map fst ts)) l k'
    /\ forall lv tl, sp (lens (a ++ map fst ts)) lv tl -> sp (lens a) (flat_map leaves cs ++ lv) (map fst ts ++ tl).
  Proof.
    intros F ts cs H. induction H as [|F w ts cs W C IH|ty g F ts cs NW C IH|ty pre body F ts1 cs1 ts cs C1 IH1 C IH|k body F ts cs C IH]; intros a b l k' EQ SP.
    - cbn in *. rewrite app_nil_r in *. auto.
    - cbn [map app] in *. destruct (IH (a ++ [fst w]) b l k') as [A B].
      + rewrite <- app_assoc. exact EQ.
      + rewrite nw_app. rewrite (nw_white [fst w]) by (constructor; auto). rewrite Nat.add_0_r. exact SP.
      + rewrite <- app_assoc in A, B. split; auto. intros lv tl S. cbn [flat_map leaves raw_leaf app]. apply sp_token.
        replace (lens a + tk_len (fst w)) with (lens (a ++ [fst w])) by (rewrite lens_app, lens_cons; cbn; lia). apply B. exact S.
    - rewrite map_app in *. cbn [tokss flat_map toks app] in SP. fold (tokss F) in SP. rewrite <- app_assoc in EQ.
      assert (NF : Forall (fun t => is_ws (tk_ty t) = false) (map fst g)) by (apply Forall_map; exact NW).
      inversion SP as [|k ty0 n l0 k0 AD LO SP']; subst ty0 n k k0 l0. clear SP.
      destruct (IH (a ++ map fst g) b l k') as [A B].
      + rewrite <- app_assoc. exact EQ.
      + rewrite nw_app, (nw_solid _ NF), map_length. exact SP'.
      + rewrite <- app_assoc in A, B. split; auto. intros lv tl SS. specialize (B lv tl SS).
        cbn [flat_map leaves app]. rewrite <- app_assoc.
        destruct (map fst g) as [|t gr] eqn:EG.
        * apply map_eq_nil in EG. subst g. cbn [length] in LO.
          destruct LO as [(Q & _)|(i & j & ctx & o & raw & R1 & R2 & R3 & R4 & R5)]; [discriminate|].
          rewrite Nat.add_0_r in R4. unfold sub in R4. rewrite Nat.sub_diag in R4. cbn in R4. destruct ctx; [|discriminate].
          cbn [map]. change (lens []) with (length (@nil nat)). eapply sp_ctx with (gr := []); eauto.
          -- unfold sub. rewrite Nat.add_0_r, Nat.sub_diag. reflexivity.
          -- cbn [length]. rewrite Nat.add_0_r. rewrite app_nil_r in B. exact B.
        * assert (LG : length g = S (length gr)) by (rewrite <- (map_length fst), EG; reflexivity).
          assert (NT : is_ws (tk_ty t) = false) by (inversion NF; auto).
          pose proof (idx_here a t (gr ++ map fst ts ++ b) EQ NT) as IH0.
          destruct LO as [(Q & o & raw & t' & J1 & J2 & J3)|(i & j & ctx & o & raw & R1 & R2 & R3 & R4 & R5)].
          -- rewrite IH0 in J1. injection J1 as <- <-. rewrite EQ in J2. rewrite nth_error_app2 in J2 by lia. rewrite Nat.sub_diag in J2. cbn in J2.
             injection J2 as <-. rewrite Q in LG. destruct gr; [|discriminate]. subst ty. cbn [lens app] in *.
             replace (lens [t]) with (tk_len t) by (rewrite lens_cons; cbn; lia). apply sp_token.
             replace (lens a + tk_len t) with (lens (a ++ [t])) by (rewrite lens_app, lens_cons; cbn; lia). exact B.
          -- rewrite IH0 in R3. injection R3 as <- <-. assert (R4' : lens (t :: gr) = length ctx).
             { rewrite <- R4, EQ, LG. change (t :: gr) with ([t] ++ gr). f_equal. symmetry. apply (sub_mid a (t :: gr) (map fst ts ++ b)). }
             rewrite R4'. eapply sp_ctx; eauto. rewrite <- R4'. rewrite <- lens_app. exact B.
    - rewrite map_app in *. rewrite <- app_assoc in EQ. rewrite tokss_cons, toks_node, <- app_assoc in SP.
      destruct (IH1 a (map fst ts ++ b) _ _ EQ SP) as [A B]. rewrite app_assoc in EQ.
      destruct (IH (a ++ map fst ts1) b l k' EQ A) as [A2 B2]. rewrite <- app_assoc in A2, B2. split; auto.
      intros lv tl S. cbn [flat_map leaves]. rewrite <- !app_assoc. apply B. rewrite <- ?app_assoc. apply B2. exact S.
    - apply (IH a b l k' EQ). unfold tokss in *. rewrite flat_map_app. cbn [flat_map toks] in SP. exact SP.
  Qed.

  (** A tree laid over all tokens. *)
  Lemma root_spells : forall t ts T k', covers is_ws [t] ts [T] -> map fst ts = e_toks E -> spans E 0 (tokss [t]) k' ->
    sp 0 (leaves T) (e_toks E).
  Proof.
    intros t ts T k' C EQ SP. rewrite <- (app_nil_r (tokss [t])) in SP.
    destruct (covers_spells [t] ts [T] C [] [] [] k') as [_ H].
    - cbn. rewrite app_nil_r. auto.
    - exact SP.
    - specialize (H [] [] (sp_end _ _ _)). rewrite !app_nil_r in H. cbn [flat_map] in H. rewrite app_nil_r in H. rewrite <- EQ. exact H.
  Qed.
End Leaves.
