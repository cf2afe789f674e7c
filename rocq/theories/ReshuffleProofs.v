(** Reordering the events of an encoded forest gives its plain nested reading. *)
From Coq Require Import List Arith Bool Lia.
From Verif Require Import Base BaseFacts LexModel GrammarModel ParserModel ForestSpec TreeModel ConvertModel RefineProofs.
Import ListNotations.

Fixpoint all_attached (F : list ptree) : Prop := match F with [] => True | t :: r => attached t /\ all_attached r end.

Lemma attached_node : forall ty pre body, attached (PNode ty pre body) <->
  (match pre with [] => True | PNode _ _ _ :: _ => True | _ => False end) /\ all_attached pre /\ all_attached body.
Proof.
  assert (Q : forall l, (fix all (l : list ptree) : Prop := match l with [] => True | x :: r => attached x /\ all r end) l <-> all_attached l).
  { induction l as [|x l IH]; cbn; [tauto|]. rewrite IH. tauto. }
  intros. cbn [attached]. rewrite !Q. tauto.
Qed.

Lemma attached_cached : forall k body, attached (PCached k body) <-> all_attached body.
Proof.
  intros k body. cbn [attached]. induction body as [|x l IH]; cbn; [tauto|]. rewrite IH. tauto.
Qed.

Lemma flats_cons : forall t F, flats (t :: F) = flat t ++ flats F.
Proof. reflexivity. Qed.

Lemma flats_app : forall F G, flats (F ++ G) = flats F ++ flats G.
Proof. intros. apply flat_map_app. Qed.

Lemma flat_node : forall ty pre body, flat (PNode ty pre body) = EvStart ty None :: flats pre ++ flats body ++ [EvEnd].
Proof. reflexivity. Qed.

Lemma enc_pos : forall fp t, 0 < length (enc fp t).
Proof. intros fp [ty pre b|ty n|k b]; [rewrite enc_node, app_length; cbn [length]; lia|cbn; lia|cbn; lia]. Qed.

Lemma enc_len_fp : forall a b t, length (enc a t) = length (enc b t).
Proof. intros a b [ty pre x|ty n|k x]; [|reflexivity|reflexivity]. rewrite !enc_node, !app_length. reflexivity. Qed.

Lemma pre_enc_len : forall pre, length (pre_enc pre) = length (encs pre).
Proof.
  intros [|x r]; [reflexivity|]. cbn [pre_enc]. rewrite encs_cons, !app_length. f_equal. apply enc_len_fp.
Qed.

(** Both readings have the same number of events. *)
Lemma flat_len : forall n t fp, length (enc fp t) < n -> length (flat t) = length (enc fp t).
Proof.
  induction n as [|n IH]; intros t fp L; [lia|].
  assert (FS : forall F, length (encs F) < n -> length (flats F) = length (encs F)).
  { induction F as [|x F IHF]; intros LF; [reflexivity|]. rewrite encs_cons, app_length in LF.
    rewrite flats_cons, encs_cons, !app_length. rewrite (IH x None) by lia. rewrite IHF by lia. reflexivity. }
  destruct t as [ty pre b|ty k|k b].
  - rewrite enc_node in *. rewrite flat_node. rewrite !app_length in *. cbn [length] in *. rewrite !app_length in *. cbn [length] in *.
    rewrite pre_enc_len in *. rewrite !FS by lia. lia.
  - reflexivity.
  - rewrite enc_cached in *. cbn [length] in *. change (flat (PCached k b)) with (EvCached k (length (flats b)) :: flats b).
    cbn [length]. rewrite FS by lia. reflexivity.
Qed.

Lemma flats_len : forall F, length (flats F) = length (encs F).
Proof.
  induction F as [|t F IH]; [reflexivity|]. rewrite flats_cons, encs_cons, !app_length, IH.
  rewrite (flat_len _ t None (Nat.lt_succ_diag_r _)). reflexivity.
Qed.

Lemma index_mid : forall A (l r : list A) x i, i = length l -> index (l ++ x :: r) i = Ok x.
Proof. intros. unfold index. rewrite nth_mid by auto. reflexivity. Qed.

Lemma chase_more : forall f ev i c, chase f ev i = Ok c -> forall f', f <= f' -> chase f' ev i = Ok c.
Proof.
  induction f as [|f IH]; intros ev i c H f' L; [discriminate|]. destruct f' as [|f']; [lia|]. cbn [chase] in *.
  destruct (index ev i) as [e| |]; cbn [bind] in *; try discriminate. destruct e as [ty [d|]| | |]; try discriminate; auto.
  apply bind_ok in H. destruct H as (r & H1 & H2). rewrite (IH _ _ _ H1 f') by lia. exact H2.
Qed.

(** Not at a hole. *)
Definition clear (H : list nat) (j : nat) : Prop := match H with [] => True | h :: _ => j <= h end.

Lemma not_hole : forall H i j, clear H j -> i < j -> match H with h :: _ => h =? i | [] => false end = false.
Proof. intros [|h H] i j C L; [reflexivity|]. cbn in C. apply Nat.eqb_neq. lia. Qed.

Definition start_of (t : ptree) (i : nat) : nat := match t with PNode _ pre _ => i + length (pre_enc pre) | _ => i end.

(** One tree, with an outer chain [c]. *)
Definition RT (n : nat) : Prop := forall ty pre body fp c all A B H,
  let t := PNode ty pre body in
  let i := length A in
  let j := i + length (enc fp t) in
  length (enc fp t) < n -> attached t -> all = A ++ enc fp t ++ B ->
  match fp with
  | None => c = []
  | Some d => chase (length c) all (start_of t i + d) = Ok c /\ clear (map fst c) j /\ j + length c <= length all
  end ->
  clear H j ->
  reshuffle_from all i H (enc fp t ++ B) =
  (r <- reshuffle_from all j (map fst c ++ H) B ;; Ok (opened c ++ flat t ++ r)).

Definition RF (n : nat) : Prop := forall F all A B H,
  let i := length A in
  let j := i + length (encs F) in
  length (encs F) < n -> all_attached F -> all = A ++ encs F ++ B -> clear H j ->
  reshuffle_from all i H (encs F ++ B) = (r <- reshuffle_from all j H B ;; Ok (flats F ++ r)).

Lemma bind_bind_ok : forall A B C (x : res A) (f : A -> B) (g : B -> C),
  (r <- (r <- x ;; Ok (f r)) ;; Ok (g r)) = (r <- x ;; Ok (g (f r))).
Proof. intros A B C [a| |] f g; reflexivity. Qed.

Lemma bind_ext : forall A B (x : res A) (f g : A -> res B), (forall a, f a = g a) -> bind x f = bind x g.
Proof. intros A B [a| |] f g H; cbn; auto. Qed.

Lemma opened_cons : forall p c, opened (p :: c) = opened c ++ [EvStart (snd p) None].
Proof. intros. unfold opened. cbn [rev]. rewrite map_app. reflexivity. Qed.

Lemma clear_app : forall a b j, clear a j -> clear b j -> clear (a ++ b) j.
Proof. intros [|x a] b j; cbn; auto. Qed.

Lemma clear_le : forall a i j, clear a j -> i <= j -> clear a i.
Proof. intros [|x a] i j; cbn; auto. lia. Qed.

(** The body and the closing event of a node. *)
Lemma body_end : forall n, RF n -> forall body all A B H, length (encs body) < n -> all_attached body ->
  all = A ++ encs body ++ EvEnd :: B -> clear H (S (length A + length (encs body))) ->
  reshuffle_from all (length A) H (encs body ++ EvEnd :: B)
  = (r <- reshuffle_from all (S (length A + length (encs body))) H B ;; Ok (flats body ++ EvEnd :: r)).
Proof.
  intros n HF body all A B H L AT EQ C.
  rewrite (HF body all A (EvEnd :: B) H L AT EQ) by (eapply clear_le; [exact C|lia]).
  cbn [reshuffle_from]. rewrite (not_hole H _ _ C) by lia. rewrite bind_bind_ok. apply bind_ext. intros a.
  reflexivity.
Qed.

Lemma RT_step : forall n, RT n -> RF n -> RT (S n).
Proof.
  intros n HT HF ty pre body fp c all A B H t i j L AT EQ HC CH. unfold t in *. clear t.
  apply (proj1 (attached_node _ _ _)) in AT. destruct AT as (AH & AP & AB).
  assert (LL : j = i + length (encs pre) + 2 + length (encs body)).
  { unfold j. rewrite enc_node, !app_length. cbn [length]. rewrite app_length, pre_enc_len. cbn [length]. lia. }
  rewrite enc_node in L, EQ |- *. rewrite !app_length in L. cbn [length] in L. rewrite app_length in L. cbn [length] in L.
  rewrite pre_enc_len in L.
  destruct pre as [|x rest].
  - cbn [pre_enc app] in *. rewrite <- app_assoc. cbn [app reshuffle_from].
    rewrite (not_hole H _ _ CH) by (unfold i, j in *; lia).
    assert (BE : forall H', clear H' j -> reshuffle_from all (S i) H' (encs body ++ EvEnd :: B)
                 = (r <- reshuffle_from all j H' B ;; Ok (flats body ++ EvEnd :: r))).
    { intros H' CH'. pose proof (body_end n HF body all (A ++ [EvStart ty fp]) B H') as BE.
      rewrite app_length in BE. cbn [length] in BE. replace (length A + 1) with (S i) in BE by (unfold i; lia).
      replace (S (S i + length (encs body))) with j in BE by (cbn in LL; lia).
      apply BE; auto; try lia. rewrite EQ. rewrite <- !app_assoc. cbn [app]. rewrite <- ?app_assoc. reflexivity. }
    destruct fp as [d|].
    + destruct HC as (CC & CL & LC). cbn [start_of pre_enc length] in CC. rewrite Nat.add_0_r in CC.
      assert (CA : chase (S (length all)) all i = Ok ((i, ty) :: c)).
      { apply (chase_more (S (length c))); [|lia]. cbn [chase]. rewrite EQ at 1. rewrite index_mid by reflexivity. cbn [bind].
        rewrite CC. reflexivity. }
      rewrite CA. cbn [bind map fst tl app]. rewrite BE by (apply clear_app; auto).
      rewrite bind_bind_ok. apply bind_ext. intros r. rewrite opened_cons, flat_node. cbn [snd flats flat_map app].
      rewrite <- !app_assoc. reflexivity.
    + subst c. cbn [map app]. rewrite BE by auto. rewrite bind_bind_ok. apply bind_ext. intros r.
      rewrite flat_node. cbn [opened rev map flats flat_map app]. rewrite <- !app_assoc. reflexivity.
  - destruct x as [tx px bx| |]; try contradiction. cbn [all_attached] in AP. destruct AP as [AX AR].
    set (x := PNode tx px bx) in *.
    set (d' := own x + length (encs rest)) in *.
    cbn [pre_enc] in EQ |- *. fold d' in EQ |- *. rewrite encs_cons, app_length in L, LL.
    set (st := i + length (enc (Some d') x) + length (encs rest)).
    rewrite <- !app_assoc in EQ |- *. cbn [app] in EQ |- *. rewrite <- (app_assoc (encs body)) in EQ. cbn [app] in EQ.
    assert (SX : start_of x i + d' = st).
    { unfold st. rewrite (enc_len_fp (Some d') None x). unfold start_of, d', x, own. rewrite enc_node, !app_length. cbn [length]. rewrite app_length. cbn [length]. lia. }
    assert (Lx : length (enc (Some d') x) = length (enc None x)) by apply enc_len_fp.
    assert (LT : length all = j + length B).
    { rewrite EQ, !app_length. cbn [length]. rewrite !app_length. cbn [length]. fold i. lia. }
    assert (CX : chase (S (length c)) all st = Ok ((st, ty) :: c)).
    { cbn [chase].
      replace (index all st) with (index (((A ++ enc (Some d') x) ++ encs rest) ++ EvStart ty fp :: encs body ++ EvEnd :: B) st)
        by (rewrite EQ, <- !app_assoc; reflexivity).
      rewrite index_mid by (rewrite !app_length; unfold st, i; lia). cbn [bind].
      destruct fp as [d|]; [|subst c; reflexivity]. destruct HC as (CC & _ & _).
      replace (start_of (PNode ty (x :: rest) body) i) with st in CC.
      - rewrite CC. reflexivity.
      - unfold start_of, st. cbn [pre_enc]. fold d'. rewrite app_length. lia. }
    assert (JC : j + length c <= length all) by (destruct fp; [apply HC|subst c; cbn; lia]).
    assert (CLc : clear (map fst c) j) by (destruct fp; [apply HC|subst c; exact I]).
    pose proof (HT tx px bx (Some d') ((st, ty) :: c) all A (encs rest ++ EvStart ty fp :: encs body ++ EvEnd :: B) H) as HX.
    cbv zeta in HX. fold x in HX. fold i in HX. rewrite <- (app_assoc (encs body)). cbn [app]. rewrite HX; clear HX.
    + cbn [map fst app]. fold i. fold x.
      pose proof (HF rest all (A ++ enc (Some d') x) (EvStart ty fp :: encs body ++ EvEnd :: B) (st :: map fst c ++ H)) as HR.
      rewrite app_length in HR. fold i in HR. rewrite HR; clear HR;
        [|lia|exact AR|rewrite EQ, <- !app_assoc; reflexivity|unfold st; cbn; lia].
      fold st. cbn [reshuffle_from tl]. rewrite Nat.eqb_refl.
      pose proof (body_end n HF body all (A ++ enc (Some d') x ++ encs rest ++ [EvStart ty fp]) B (map fst c ++ H)) as BE.
      replace (length (A ++ enc (Some d') x ++ encs rest ++ [EvStart ty fp])) with (S st) in BE
        by (rewrite !app_length; cbn [length]; unfold st, i; lia).
      replace (S (S st + length (encs body))) with j in BE by (unfold st; lia).
      rewrite BE; clear BE; [|lia|exact AB|rewrite EQ, <- !app_assoc; reflexivity|apply clear_app; auto].
      rewrite !bind_bind_ok. apply bind_ext. intros r. rewrite opened_cons, flat_node, flats_cons. cbn [snd].
      rewrite <- !app_assoc. cbn [app]. rewrite <- ?app_assoc. reflexivity.
    + fold x. lia.
    + exact AX.
    + fold x. rewrite EQ. reflexivity.
    + fold x i. rewrite SX. split; [exact CX|]. split; [cbn [clear map fst]; unfold st; lia|]. cbn [length]. lia.
    + fold x i. eapply clear_le; [exact CH|]. lia.
Qed.

Lemma RF_step : forall n, RT (S n) -> RF n -> RF (S n).
Proof.
  intros n HT HF F. induction F as [|t F IH]; intros all A B H i j L AT EQ CH.
  - cbn [encs flat_map app flats] in *. unfold j. rewrite Nat.add_0_r. fold i.
    destruct (reshuffle_from all i H B); reflexivity.
  - cbn [all_attached] in AT. destruct AT as [At AF]. rewrite encs_cons, app_length in L.
    assert (LJ : j = i + length (enc None t) + length (encs F)) by (unfold j; rewrite encs_cons, app_length; lia).
    pose proof (enc_pos None t) as EP.
    rewrite encs_cons in EQ |- *. rewrite <- app_assoc in EQ |- *.
    assert (ST : reshuffle_from all i H (enc None t ++ encs F ++ B)
                 = (r <- reshuffle_from all (i + length (enc None t)) H (encs F ++ B) ;; Ok (flat t ++ r))).
    { destruct t as [ty pre body|ty k|k body].
      - pose proof (HT ty pre body None [] all A (encs F ++ B) H) as HR. cbv zeta in HR. fold i in HR. rewrite HR; auto; [lia|].
        eapply clear_le; [exact CH|lia].
      - cbn [enc app reshuffle_from length]. rewrite (not_hole H _ _ CH) by lia. rewrite Nat.add_1_r. reflexivity.
      - rewrite enc_cached in *. cbn [app reshuffle_from length] in *. rewrite (not_hole H _ _ CH) by lia.
        apply (proj1 (attached_cached _ _)) in At.
        pose proof (HF body all (A ++ [EvCached k (length (encs body))]) (encs F ++ B) H) as HR.
        rewrite app_length in HR. cbn [length] in HR. fold i in HR. replace (i + 1) with (S i) in HR by lia.
        rewrite HR; clear HR; [|lia|exact At|rewrite EQ, <- !app_assoc; reflexivity|eapply clear_le; [exact CH|lia]].
        rewrite bind_bind_ok. replace (S i + length (encs body)) with (i + S (length (encs body))) by lia.
        apply bind_ext. intros r. cbn [flat]. fold (flats body). rewrite flats_len. reflexivity. }
    rewrite ST.
    pose proof (IH all (A ++ enc None t) B H) as HR. cbv zeta in HR. rewrite app_length in HR. fold i in HR.
    rewrite HR; clear HR; [|lia|exact AF|rewrite EQ, <- !app_assoc; reflexivity|eapply clear_le; [exact CH|lia]].
    rewrite bind_bind_ok. rewrite LJ. apply bind_ext. intros r. rewrite flats_cons, <- app_assoc. reflexivity.
Qed.

Lemma RTF : forall n, RT n /\ RF n.
Proof.
  induction n as [|n [HT HF]].
  - split; [intros ? ? ? ? ? ? ? ? ? t i j L; lia|intros ? ? ? ? ? i j L; lia].
  - pose proof (RT_step n HT HF) as HT'. split; auto. apply RF_step; auto.
Qed.

(** The reordered events of an attached forest are its plain reading. *)
Lemma reshuffle_ok : forall F, all_attached F -> reshuffle (encs F) = Ok (flats F).
Proof.
  intros F AT. unfold reshuffle.
  pose proof (proj2 (RTF (S (length (encs F)))) F (encs F) [] [] []) as H. cbn [length] in H. rewrite !app_nil_r in H.
  rewrite H; auto; try lia; try exact I. cbn. rewrite app_nil_r. reflexivity.
Qed.
