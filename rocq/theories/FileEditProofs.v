(** Proofs about structural edits. *)
From Coq Require Import List Arith Bool Lia.
From Verif Require Import Base BaseFacts TextModel EditModel TreeModel SearchModel FileEditModel
  TextSpec TextProofs TreeSpec TreeProofs SearchSpec SearchProofs TraversalProofs FileEditSpec.
Import ListNotations.

Ltac al := first [apply Forall_nil | apply Forall_cons; [first [exact I | split; cbn; assumption]|apply Forall_nil]].

(** ** Edits as lists of builder calls *)

Section Calls.
  Variables (del : nat -> bool) (rep ins : nat -> option bytes).

  Fixpoint ecalls (t : tree) (i p : nat) : list edit_call :=
    if del i then [CDelete (mkRange p (p + tlen t))]
    else match rep i with
         | Some r => [CReplace (mkRange p (p + tlen t)) r]
         | None =>
             match t with
             | Leaf _ _ => []
             | Node _ ts =>
                 (fix go (l : list tree) (j q : nat) : list edit_call :=
                    match l with
                    | [] => []
                    | x :: r => ecalls x j q ++ go r (j + tsize x) (q + tlen x)
                    end) ts (S i) p
             end ++ match ins i with Some x => [CInsert (p + tlen t) x] | None => [] end
         end.

  Fixpoint ecallss (l : list tree) (j q : nat) : list edit_call :=
    match l with
    | [] => []
    | x :: r => ecalls x j q ++ ecallss r (j + tsize x) (q + tlen x)
    end.

  Lemma ecalls_eq : forall t i p, ecalls t i p =
    if del i then [CDelete (mkRange p (p + tlen t))]
    else match rep i with
         | Some r => [CReplace (mkRange p (p + tlen t)) r]
         | None => ecallss (t_children t) (S i) p ++ match ins i with Some x => [CInsert (p + tlen t) x] | None => [] end
         end.
  Proof. intros [ty n|ty ts] i p; reflexivity. Qed.

  Variable s : bytes.

  Fixpoint editeds (l : list tree) (j q : nat) : bytes :=
    match l with
    | [] => []
    | x :: r => edited del rep ins s x j q ++ editeds r (j + tsize x) (q + tlen x)
    end.

  Lemma edited_node : forall ty ts i p, edited del rep ins s (Node ty ts) i p =
    if del i then []
    else match rep i with
         | Some r => r
         | None => editeds ts (S i) p ++ match ins i with Some x => x | None => [] end
         end.
  Proof. reflexivity. Qed.

  (** Calls of one subtree stay inside its range and splice to its edited text. *)
  Definition good (t : tree) : Prop := forall i p pos rest n, pos <= p ->
    ordered (p + tlen t) n rest -> n = length s ->
    ordered pos n (map repl_of_call (ecalls t i p) ++ rest)
    /\ splice pos s (map repl_of_call (ecalls t i p) ++ rest)
       = sub pos p s ++ edited del rep ins s t i p ++ splice (p + tlen t) s rest.

  Lemma ordered_bound : forall rest q n, ordered q n rest -> q <= n.
  Proof. induction rest as [|r rest IH]; intros q n H; cbn in H; [lia|]. destruct H as (A & B & C). apply IH in C. lia. Qed.

  Lemma good_skip : forall p n pos rest len, pos <= p -> ordered (p + len) n rest -> n = length s ->
    splice pos s rest = sub pos p s ++ sub p (p + len) s ++ splice (p + len) s rest.
  Proof.
    intros p n pos rest len L O E. assert (B := ordered_bound _ _ _ O).
    assert (H := ordered_head _ _ _ O).
    rewrite (splice_sub s pos (p + len) rest) by (try lia; destruct rest; lia).
    rewrite app_assoc, sub_app by lia. reflexivity.
  Qed.

  Lemma good_ins : forall e n pos rest i, pos <= e -> ordered e n rest ->
    ordered pos n (map repl_of_call (match ins i with Some x => [CInsert e x] | None => [] end) ++ rest)
    /\ splice pos s (map repl_of_call (match ins i with Some x => [CInsert e x] | None => [] end) ++ rest)
       = match ins i with
         | Some x => sub pos e s ++ x ++ splice e s rest
         | None => splice pos s rest
         end.
  Proof.
    intros e n pos rest i L O. destruct (ins i) as [x|]; cbn.
    - split; [auto|reflexivity].
    - split; [eapply ordered_weaken; eauto|reflexivity].
  Qed.

  Lemma all_good : forall t, good t.
  Proof.
    apply tree_ind'.
    - intros ty m i p pos rest n L O E. assert (B := ordered_bound _ _ _ O). cbn [tlen] in *.
      rewrite ecalls_eq. cbn [t_children ecallss edited tlen app].
      destruct (del i); [cbn; split; [lia || auto with arith|reflexivity]|].
      destruct (rep i) as [r|]; [cbn; split; [lia || auto with arith|reflexivity]|].
      destruct (good_ins (p + m) n pos rest i ltac:(lia) O) as [A C]. split; [exact A|]. rewrite C.
      destruct (ins i) as [x|].
      + rewrite <- app_assoc, (app_assoc (sub pos p s)), sub_app by lia. reflexivity.
      + rewrite app_nil_r. now apply good_skip with (n := n).
    - intros ty ts F i p pos rest n L O E. assert (B := ordered_bound _ _ _ O).
      rewrite ecalls_eq, edited_node. cbn [t_children].
      destruct (del i); [cbn [map app repl_of_call ordered splice r_from r_to r_what rstart rend]; split; [repeat split; auto; lia|reflexivity]|].
      destruct (rep i) as [r|]; [cbn [map app repl_of_call ordered splice r_from r_to r_what rstart rend]; split; [repeat split; auto; lia|reflexivity]|].
      cbn [tlen] in *. fold (tlens ts) in *.
      assert (G : forall j q pos rest, pos <= q -> ordered (q + tlens ts) n rest ->
                ordered pos n (map repl_of_call (ecallss ts j q) ++ rest)
                /\ (splice pos s (map repl_of_call (ecallss ts j q) ++ rest) =
                     sub pos q s ++ editeds ts j q ++ splice (q + tlens ts) s rest)).
      { clear -F E. induction F as [|x l Hx F IH]; intros j q pos rest L O.
        - cbn. unfold tlens in *. cbn in O. rewrite Nat.add_0_r in O. cbn. rewrite Nat.add_0_r.
          split; [eapply ordered_weaken; eauto|]. assert (B := ordered_bound _ _ _ O).
          apply splice_sub; [exact L|]. rewrite <- E. eapply ordered_head; eauto.
        - cbn [ecallss editeds]. rewrite tlens_cons in *. rewrite map_app, <- !app_assoc.
          destruct (IH (j + tsize x) (q + tlen x) (q + tlen x) rest (le_n _)) as [O1 S1]; [now rewrite <- Nat.add_assoc|].
          destruct (Hx j q pos _ n L O1 E) as [O2 S2]. split; [exact O2|]. rewrite S2, S1.
          rewrite sub_empty. cbn [app]. now rewrite Nat.add_assoc. }
      rewrite map_app, <- app_assoc.
      destruct (good_ins (p + tlens ts) n (p + tlens ts) rest i (le_n _) O) as [O1 S1].
      destruct (G (S i) p pos _ L O1) as [O2 S2]. split; [exact O2|]. rewrite S2, S1.
      destruct (ins i) as [x|].
      + rewrite sub_empty. cbn [app]. now rewrite <- app_assoc.
      + now rewrite app_nil_r.
  Qed.

  Lemma ecalls_spec : forall T, tlen T = length s ->
    ordered 0 (length s) (map repl_of_call (ecalls T 0 0)) /\
    splice 0 s (map repl_of_call (ecalls T 0 0)) = edited del rep ins s T 0 0.
  Proof.
    intros T L. destruct (all_good T 0 0 0 [] (length s) (le_n _)) as [A B].
    - cbn. lia.
    - reflexivity.
    - rewrite app_nil_r in A, B. split; [exact A|]. rewrite B. cbn [splice plus]. rewrite L, !sub_empty, app_nil_r. reflexivity.
  Qed.

  Lemma ecalls_aligned : forall T, (forall i p par t, At T i p par t -> aligned s p /\ aligned s (p + tlen t)) ->
    forall t i p q, At T i p q t -> repls_aligned s (map repl_of_call (ecalls t i p)).
  Proof.
    intros T H. apply (tree_ind' (fun t => forall i p q, At T i p q t -> repls_aligned s (map repl_of_call (ecalls t i p)))).
    - intros ty n i p q A. destruct (H _ _ _ _ A) as [H1 H2]. rewrite ecalls_eq. cbn [t_children ecallss app].
      destruct (del i); [al|]. destruct (rep i); [al|].
      destruct (ins i); al.
    - intros ty ts F i p q A. destruct (H _ _ _ _ A) as [H1 H2]. rewrite ecalls_eq. cbn [t_children].
      destruct (del i); [al|]. destruct (rep i); [al|].
      rewrite map_app. apply Forall_app. split.
      + assert (G : forall l pre, ts = pre ++ l -> repls_aligned s (map repl_of_call (ecallss l (S i + tsizes pre) (p + tlens pre)))).
        { induction l as [|x l IH]; intros pre E; [constructor|]. cbn [ecallss]. rewrite map_app. apply Forall_app. split.
          - rewrite Forall_forall in F. eapply F; [rewrite E; apply in_or_app; right; left; reflexivity|].
            eapply At_child. rewrite <- E. exact A.
          - specialize (IH (pre ++ [x])). rewrite <- app_assoc in IH. specialize (IH E).
            rewrite tsizes_app, tlens_app, tsizes_cons, tlens_cons in IH.
            replace (tsizes []) with 0 in IH by reflexivity. replace (tlens []) with 0 in IH by reflexivity.
            rewrite !Nat.add_0_r, !Nat.add_assoc in IH. exact IH. }
        specialize (G ts [] eq_refl). replace (tsizes []) with 0 in G by reflexivity. replace (tlens []) with 0 in G by reflexivity.
        rewrite !Nat.add_0_r in G. exact G.
      + destruct (ins i); al.
  Qed.
End Calls.

(** ** The model runs these calls *)

Lemma run_calls_app : forall a b c, run_calls c (a ++ b) = (d <- run_calls c a ;; run_calls d b).
Proof. induction a as [|x a IH]; intros b c; [reflexivity|]. cbn. destruct (run_call c x); cbn; auto. Qed.

Lemma first_for_find : forall l n,
  find_first (fun x => fst x =? n) l = match first_for l n with Some t => Some (n, t) | None => None end.
Proof.
  induction l as [|[m t] l IH]; intros n; [reflexivity|]. cbn. destruct (m =? n) eqn:E; [|apply IH].
  apply Nat.eqb_eq in E. now subst.
Qed.

Lemma edit_for_node_ok : forall f T e, stores (f_nodes f) T ->
  forall t i p q fuel b, At T i p q t -> tsize t <= fuel ->
  text_edit_for_node fuel f e i b = run_calls b (ecalls (deletes e) (first_for (fe_replaced e)) (first_for (fe_inserted e)) t i p).
Proof.
  intros f T e ST. apply (tree_ind' (fun t => forall i p q fuel b, At T i p q t -> tsize t <= fuel ->
    text_edit_for_node fuel f e i b = run_calls b (ecalls (deletes e) (first_for (fe_replaced e)) (first_for (fe_inserted e)) t i p))).
  - intros ty n i p q [|fuel] b A L; [cbn in L; lia|]. cbn [text_edit_for_node]. rewrite ecalls_eq.
    fold (deletes e i). rewrite (range_ok _ _ ST _ _ _ _ A). cbn [bind]. rewrite !first_for_find.
    destruct (deletes e i).
    { cbn [run_calls run_call]. destruct (eb_delete b (mkRange p (p + tlen (Leaf ty n)))); reflexivity. }
    destruct (first_for (fe_replaced e) i) as [r|].
    { cbn [run_calls run_call]. destruct (eb_replace b (mkRange p (p + tlen (Leaf ty n))) r); reflexivity. }
    rewrite (children_ok _ _ ST _ _ _ _ A). cbn [bind t_children child_ids fold_res ecallss app].
    destruct (first_for (fe_inserted e) i) as [x|]; [|reflexivity].
    cbn [run_calls run_call rend]. destruct (eb_insert b (p + tlen (Leaf ty n)) x); reflexivity.
  - intros ty ts F i p q [|fuel] b A L; [cbn in L; lia|]. cbn [text_edit_for_node]. rewrite ecalls_eq.
    fold (deletes e i). rewrite (range_ok _ _ ST _ _ _ _ A). cbn [bind]. rewrite !first_for_find.
    destruct (deletes e i).
    { cbn [run_calls run_call]. destruct (eb_delete b (mkRange p (p + tlen (Node ty ts)))); reflexivity. }
    destruct (first_for (fe_replaced e) i) as [r|].
    { cbn [run_calls run_call]. destruct (eb_replace b (mkRange p (p + tlen (Node ty ts))) r); reflexivity. }
    rewrite (children_ok _ _ ST _ _ _ _ A). cbn [bind t_children].
    set (EC := ecallss (deletes e) (first_for (fe_replaced e)) (first_for (fe_inserted e))).
    assert (G : forall l pre b, ts = pre ++ l -> fold_res (fun b c => text_edit_for_node fuel f e c b) b (child_ids (S i + tsizes pre) l)
                  = run_calls b (EC l (S i + tsizes pre) (p + tlens pre))).
    { unfold EC. induction l as [|x l IH]; intros pre b' E; [reflexivity|]. cbn [child_ids fold_res ecallss].
      pose proof A as Ax. rewrite E in Ax. apply At_child in Ax. rewrite Forall_forall in F.
      rewrite (F x ltac:(rewrite E; apply in_or_app; right; left; reflexivity) _ _ _ fuel b' Ax).
      2:{ cbn [tsize] in L. fold (tsizes ts) in L. rewrite E, tsizes_app, tsizes_cons in L. lia. }
      rewrite run_calls_app. destruct (run_calls b' _) as [b2| |]; cbn [bind]; try reflexivity.
      specialize (IH (pre ++ [x]) b2). rewrite <- app_assoc in IH. specialize (IH E).
      rewrite tsizes_app, tlens_app, tsizes_cons, tlens_cons in IH.
      replace (tsizes []) with 0 in IH by reflexivity. replace (tlens []) with 0 in IH by reflexivity.
      rewrite !Nat.add_0_r, !Nat.add_assoc in IH. exact IH. }
    specialize (G ts [] b eq_refl). replace (tsizes []) with 0 in G by reflexivity. replace (tlens []) with 0 in G by reflexivity.
    rewrite !Nat.add_0_r in G. rewrite G, run_calls_app. destruct (run_calls b (EC ts (S i) p)) as [b2| |]; cbn [bind]; try reflexivity.
    destruct (first_for (fe_inserted e) i) as [x|]; [|reflexivity].
    cbn [run_calls run_call rend]. destruct (eb_insert b2 (p + tlen (Node ty ts)) x); reflexivity.
Qed.

(** ** Order of the copies of a built edit *)

Fixpoint reach (pos : nat) (ops : list edit_op) : option nat :=
  match ops with
  | [] => Some pos
  | Copy r :: rest => if (pos <=? rstart r) && (rstart r <=? rend r) then reach (rend r) rest else None
  | Insert _ :: rest => reach pos rest
  end.

Lemma reach_app : forall a b pos, reach pos (a ++ b) = match reach pos a with Some q => reach q b | None => None end.
Proof.
  induction a as [|[r|t] a IH]; intros b pos; [reflexivity| |apply IH]. cbn.
  destruct ((pos <=? rstart r) && (rstart r <=? rend r)); [apply IH|reflexivity].
Qed.

Lemma reach_ordered : forall ops pos q n, reach pos ops = Some q -> q <= n -> ops_ordered pos n (ops ++ [Copy (mkRange n n)]).
Proof.
  induction ops as [|[r|t] ops IH]; intros pos q n H L; cbn in *.
  - injection H as <-. lia.
  - destruct ((pos <=? rstart r) && (rstart r <=? rend r)) eqn:E; [|discriminate]. btrue. split; [lia|]. split; [lia|]. eauto.
  - eauto.
Qed.

Definition builder_inv (s : bytes) (b : edit_builder) : Prop :=
  exists q, reach 0 (segments b) = Some q /\ q <= last_offset b /\ ops_aligned s (segments b) /\ aligned s (last_offset b).

Lemma advance_inv : forall s b o, builder_inv s b -> last_offset b <= o -> aligned s o ->
  exists b', advance_to b o = Ok b' /\ builder_inv s b' /\ last_offset b' = o /\ eb_text_len b' = eb_text_len b.
Proof.
  intros s b o (q & R & Q & A & AL) L AO. unfold advance_to. destruct (Nat.compare_spec (last_offset b) o) as [E|E|E]; [| |lia].
  - exists b. split; [reflexivity|]. split; [exists q; auto|]. auto.
  - unfold copy_up_to, usub. replace (last_offset b <=? o) with true by (symmetry; apply Nat.leb_le; lia).
    cbn [bind]. unfold copy_len. rewrite from_len_ok. cbn [bind]. eexists. split; [reflexivity|].
    cbn [segments last_offset eb_text_len]. replace (last_offset b + (o - last_offset b)) with o by lia.
    split; [|auto]. exists o. cbn [segments last_offset]. rewrite reach_app, R. cbn [reach rstart rend].
    replace ((q <=? last_offset b) && (last_offset b <=? o)) with true
      by (symmetry; apply andb_true_intro; split; apply Nat.leb_le; lia).
    repeat split; auto. apply Forall_app. split; [exact A|]. al.
Qed.

Lemma call_inv : forall s b c, builder_inv s b -> last_offset b <= r_from (repl_of_call c) ->
  r_from (repl_of_call c) <= r_to (repl_of_call c) -> aligned s (r_from (repl_of_call c)) -> aligned s (r_to (repl_of_call c)) ->
  exists b', run_call b c = Ok b' /\ builder_inv s b' /\ last_offset b' = r_to (repl_of_call c) /\ eb_text_len b' = eb_text_len b.
Proof.
  intros s b c I H1 H2 A1 A2.
  destruct (advance_inv s b _ I H1 A1) as (b1 & E & (q & R & Q & A & AL) & L & TL).
  destruct c as [o t|r|r t]; cbn [repl_of_call r_from r_to] in *; cbn [run_call].
  - unfold eb_insert. rewrite E. cbn [bind]. eexists. split; [reflexivity|]. unfold insert_. cbn [last_offset eb_text_len].
    split; [|auto]. exists q. cbn [segments last_offset]. rewrite reach_app, R. cbn. repeat split; auto.
    apply Forall_app. split; [exact A|al].
  - unfold eb_delete. rewrite E. cbn [bind]. rewrite range_len_ok by exact H2. cbn [bind]. eexists. split; [reflexivity|].
    unfold delete_len. cbn [last_offset eb_text_len]. split; [|split; [lia|auto]]. exists q. cbn [segments last_offset].
    replace (last_offset b1 + (rend r - rstart r)) with (rend r) by lia. repeat split; auto. lia.
  - unfold eb_replace. rewrite E. cbn [bind]. rewrite range_len_ok by exact H2. cbn [bind]. eexists. split; [reflexivity|].
    unfold delete_len, insert_. cbn [last_offset eb_text_len segments]. split; [|split; [lia|auto]]. exists q. cbn [segments last_offset].
    replace (last_offset b1 + (rend r - rstart r)) with (rend r) by lia. rewrite reach_app, R. cbn. repeat split; auto; [lia|].
    apply Forall_app. split; [exact A|al].
Qed.

Lemma calls_inv : forall s cs b, builder_inv s b -> ordered (last_offset b) (eb_text_len b) (map repl_of_call cs) ->
  repls_aligned s (map repl_of_call cs) ->
  exists b', run_calls b cs = Ok b' /\ builder_inv s b' /\ last_offset b' <= eb_text_len b' /\ eb_text_len b' = eb_text_len b.
Proof.
  intros s. induction cs as [|c cs IH]; intros b I O R; cbn [map ordered run_calls] in *.
  - exists b. auto.
  - destruct O as (O1 & O2 & O3). inversion R as [|? ? RA R3]; subst. cbn in RA. destruct RA as [R1 R2].
    destruct (call_inv s b c I O1 O2 R1 R2) as (b1 & E & I1 & L1 & T1). rewrite E. cbn [bind].
    destruct (IH b1 I1) as (b2 & E2 & I2 & L2 & T2); [rewrite L1, T1; exact O3|exact R3|].
    exists b2. rewrite T2. repeat split; auto. congruence.
Qed.

Lemma built_ordered : forall s cs ops, ordered 0 (length s) (map repl_of_call cs) -> repls_aligned s (map repl_of_call cs) ->
  build_edit (as_text s) cs = Ok ops ->
  let all := ops ++ [Copy (mkRange (length s) (length s))] in
  ops_ordered 0 (length s) all /\ ops_aligned s all.
Proof.
  intros s cs ops O A H. unfold build_edit, eb_new in H. rewrite text_len_ok in H by apply as_text_wf.
  rewrite as_text_bytes in H. cbn [bind] in H.
  destruct (calls_inv s cs (mkEB [] 0 (length s))) as (b & E & I & L & TL); auto.
  { exists 0. cbn. repeat split; auto. constructor. left; reflexivity. }
  rewrite E in H. cbn [bind] in H. cbn [eb_text_len] in TL. unfold eb_build in H.
  assert (AE : aligned s (eb_text_len b)) by (rewrite TL; right; left; reflexivity).
  destruct (advance_inv s b _ I L AE) as (b' & E' & (q & R & Q & A' & AL) & L' & T'). rewrite E' in H. cbn [bind] in H. injection H as <-.
  cbn. split.
  - eapply reach_ordered; eauto. lia.
  - apply Forall_app. split; [exact A'|]. apply Forall_cons; [split; right; left; reflexivity|apply Forall_nil].
Qed.

(** ** The theorems about edits *)

Lemma file_edit_ok : forall f T e, wf_file f T -> char_tree (f_text f) T ->
  exists ops, into_text_edit f e = Ok ops
    /\ apply ops (as_text (f_text f)) = Ok (edit_result f T e)
    /\ ops_ordered 0 (length (f_text f)) ops /\ ops_aligned (f_text f) ops.
Proof.
  intros f T e [ST L] CT. unfold into_text_edit, eb_new. rewrite text_len_ok by apply as_text_wf. rewrite as_text_bytes. cbn [bind].
  rewrite (edit_for_node_ok f T e ST T 0 0 None _ _ (At_root T)); [|destruct ST as [LL _]; lia].
  set (cs := ecalls _ _ _ T 0 0).
  destruct (ecalls_spec (deletes e) (first_for (fe_replaced e)) (first_for (fe_inserted e)) (f_text f) T L) as [O S]. fold cs in O, S.
  assert (A := ecalls_aligned (deletes e) (first_for (fe_replaced e)) (first_for (fe_inserted e)) (f_text f) T CT T 0 0 None (At_root T)). fold cs in A.
  destruct (build_edit_ok (f_text f) cs O A) as (ops & E & Ap).
  pose proof (built_ordered _ _ _ O A E) as [O' A'].
  unfold build_edit, eb_new in E. rewrite text_len_ok, as_text_bytes in E by apply as_text_wf. cbn [bind] in E.
  destruct (run_calls (mkEB [] 0 (length (f_text f))) cs) as [b| |]; cbn [bind] in *; try discriminate.
  rewrite E. cbn [bind]. rewrite from_len_ok, Nat.add_0_r. cbn [bind].
  eexists. split; [reflexivity|]. split; [|auto].
  rewrite apply_app, Ap. cbn [bind]. rewrite apply_copy by (auto; right; left; reflexivity).
  rewrite sub_empty. cbn. rewrite app_nil_r. unfold edit_result. now rewrite S.
Qed.

(** *** Changing one node changes only its text *)

Lemma edited_none : forall del rep ins s t i p,
  (forall j, i <= j < i + tsize t -> del j = false /\ rep j = None /\ ins j = None) -> p + tlen t <= length s ->
  edited del rep ins s t i p = sub p (p + tlen t) s.
Proof.
  intros del rep ins s. apply (tree_ind' (fun t => forall i p,
    (forall j, i <= j < i + tsize t -> del j = false /\ rep j = None /\ ins j = None) -> p + tlen t <= length s ->
    edited del rep ins s t i p = sub p (p + tlen t) s)).
  - intros ty n i p H L. cbn. destruct (H i) as (-> & -> & ->); [cbn; lia|]. now rewrite app_nil_r.
  - intros ty ts F i p H L. rewrite edited_node. destruct (H i) as (-> & -> & ->); [cbn; lia|]. rewrite app_nil_r.
    cbn [tlen tsize] in *. fold (tlens ts) in *. fold (tsizes ts) in *.
    assert (G : forall j q, (forall k, j <= k < j + tsizes ts -> del k = false /\ rep k = None /\ ins k = None) ->
       q + tlens ts <= length s -> editeds del rep ins s ts j q = sub q (q + tlens ts) s).
    { clear -F. induction F as [|x l Hx F IH]; intros j q H L.
      - unfold tlens. cbn. rewrite Nat.add_0_r. now rewrite sub_empty.
      - rewrite tsizes_cons, tlens_cons in *. cbn [editeds]. rewrite Hx, IH.
        + rewrite sub_app by lia. now rewrite Nat.add_assoc.
        + intros k K. apply H. lia.
        + lia.
        + intros k K. apply H. lia.
        + lia. }
    apply G; [|exact L]. intros k K. apply H. lia.
Qed.

Lemma edited_one : forall s new c t i p q pc qc tc, AtG t i p q c pc qc tc -> p + tlen t <= length s ->
  edited (fun _ => false) (fun j => if c =? j then Some new else None) (fun _ => None) s t i p
  = sub p pc s ++ new ++ sub (pc + tlen tc) (p + tlen t) s.
Proof.
  intros s new c. apply (tree_ind' (fun t => forall i p q pc qc tc, AtG t i p q c pc qc tc -> p + tlen t <= length s ->
    edited (fun _ => false) (fun j => if c =? j then Some new else None) (fun _ => None) s t i p
    = sub p pc s ++ new ++ sub (pc + tlen tc) (p + tlen t) s)).
  - intros ty n i p q pc qc tc G L. apply AtG_inv in G as [(-> & -> & -> & ->)|(? & ? & ? & ? & E & _)]; [|discriminate].
    cbn. rewrite Nat.eqb_refl, !sub_empty. now rewrite app_nil_r.
  - intros ty ts F i p q pc qc tc G L. rewrite edited_node.
    apply AtG_inv in G as [(-> & -> & -> & ->)|(ty' & a & x & b & E & G)].
    + rewrite Nat.eqb_refl, !sub_empty, app_nil_r. reflexivity.
    + injection E as <- ->. pose proof (AtG_bounds _ _ _ _ _ _ _ _ G) as BD. pose proof (tsize_pos tc).
      replace (c =? i) with false by (symmetry; apply Nat.eqb_neq; lia). rewrite app_nil_r.
      cbn [tlen] in *. fold (tlens (a ++ x :: b)) in *. rewrite tlens_app, tlens_cons in *.
      assert (EA : forall u v j k, editeds (fun _ => false) (fun j => if c =? j then Some new else None) (fun _ => None) s (u ++ v) j k
         = editeds (fun _ => false) (fun j => if c =? j then Some new else None) (fun _ => None) s u j k
           ++ editeds (fun _ => false) (fun j => if c =? j then Some new else None) (fun _ => None) s v (j + tsizes u) (k + tlens u)).
      { induction u as [|y u IH]; intros v j k.
        - unfold tsizes, tlens. cbn. now rewrite !Nat.add_0_r.
        - cbn [app editeds]. rewrite IH, tsizes_cons, tlens_cons, !Nat.add_assoc, app_assoc. reflexivity. }
      assert (EN : forall u j k, (forall y, j <= y < j + tsizes u -> c <> y) -> k + tlens u <= length s ->
         editeds (fun _ => false) (fun j => if c =? j then Some new else None) (fun _ => None) s u j k = sub k (k + tlens u) s).
      { induction u as [|y u IH]; intros j k H1 H2.
        - unfold tlens. cbn. rewrite Nat.add_0_r. now rewrite sub_empty.
        - rewrite tsizes_cons in H1. rewrite tlens_cons in *. cbn [editeds]. rewrite edited_none, IH.
          + rewrite sub_app by lia. now rewrite Nat.add_assoc.
          + intros z Z. apply H1. lia.
          + lia.
          + intros z Z. split; [reflexivity|]. split; [|reflexivity].
            replace (c =? z) with false; [reflexivity|]. symmetry. apply Nat.eqb_neq. apply H1. lia.
          + lia. }
      rewrite EA. cbn [editeds]. rewrite EN by (try intros; lia).
      rewrite Forall_forall in F. rewrite (F x ltac:(apply in_or_app; right; left; reflexivity) _ _ _ _ _ _ G) by lia.
      rewrite EN by (try intros; lia).
      rewrite <- !app_assoc. rewrite app_assoc, sub_app by lia. f_equal. f_equal.
      rewrite sub_app by lia. f_equal. lia.
Qed.

Lemma edited_ext : forall s del1 rep1 ins1 del2 rep2 ins2, (forall j, del1 j = del2 j) -> (forall j, rep1 j = rep2 j) -> (forall j, ins1 j = ins2 j) ->
  forall t i p, edited del1 rep1 ins1 s t i p = edited del2 rep2 ins2 s t i p.
Proof.
  intros s del1 rep1 ins1 del2 rep2 ins2 H1 H2 H3.
  apply (tree_ind' (fun t => forall i p, edited del1 rep1 ins1 s t i p = edited del2 rep2 ins2 s t i p)).
  - intros ty n i p. cbn. now rewrite H1, H2, H3.
  - intros ty ts F i p. rewrite !edited_node, H1, H2, H3. destruct (del2 i), (rep2 i); auto. f_equal.
    generalize (S i) as j. clear i. revert p. induction F as [|x l Hx F IH]; intros p j; [reflexivity|].
    cbn [editeds]. now rewrite Hx, IH.
Qed.

Lemma replace_substring_ok : forall f T r new, wf_file f T -> char_tree (f_text f) T ->
  proper r -> rend r <= length (f_text f) -> aligned (f_text f) (rstart r) -> aligned (f_text f) (rend r) ->
  exists e ops, fe_replace_substring f fe_new r new = Ok e /\ into_text_edit f e = Ok ops
    /\ apply ops (as_text (f_text f)) = Ok (sub 0 (rstart r) (f_text f) ++ new ++ sub (rend r) (length (f_text f)) (f_text f)).
Proof.
  intros f T r new [ST L] CT P RB A1 A2. unfold proper in P. unfold fe_replace_substring, root.
  rewrite (range_ok _ _ ST _ _ _ _ (At_root T)). cbn [bind plus]. unfold is_subrange_of. cbn [rstart rend].
  replace ((0 <=? rstart r) && (rend r <=? tlen T)) with true
    by (symmetry; apply andb_true_intro; split; apply Nat.leb_le; lia). cbn [guard].
  destruct (covering_ok _ _ ST 0 0 None T r (At_root T)) as (c & E & B & (pc & qc & tc & Ac & C1 & C2) & _); [unfold proper; lia|lia|lia|].
  rewrite E. cbn [bind]. rewrite (range_ok _ _ ST _ _ _ _ Ac). cbn [bind rstart rend].
  destruct (CT _ _ _ _ Ac) as [AA AB].
  rewrite from_to_ok by exact C1. cbn [bind].
  destruct (slice_as_str (f_text f) pc (rstart r) C1 AA A1) as (pre & SP1 & SP).
  destruct (slice_as_str (f_text f) (rend r) (pc + tlen tc) C2 A2 AB) as (suf & SS1 & SS).
  rewrite SP1. cbn [bind].
  rewrite from_to_ok by exact C2. cbn [bind].
  rewrite SS1. cbn [bind].
  rewrite SP. cbn [bind]. rewrite SS. cbn [bind].
  eexists. destruct (file_edit_ok f T (fe_replace_with_text fe_new c
    (sub pc (rstart r) (f_text f) ++ new ++ sub (rend r) (pc + tlen tc) (f_text f)))) as (ops & E1 & E2 & _); [split; auto|exact CT|].
  exists ops. split; [reflexivity|]. split; [exact E1|]. rewrite E2. f_equal. unfold edit_result.
  rewrite (edited_ext _ _ _ _ (fun _ => false) (fun j => if c =? j then Some (sub pc (rstart r) (f_text f) ++ new ++ sub (rend r) (pc + tlen tc) (f_text f)) else None) (fun _ => None)); try reflexivity.
  assert (G : AtG T 0 0 None c pc qc tc) by now apply AtG_At.
  rewrite (edited_one _ _ _ _ _ _ _ _ _ _ G) by lia. cbn [plus]. rewrite L.
  pose proof (AtG_bounds _ _ _ _ _ _ _ _ G) as BD. rewrite L in BD.
  rewrite <- !app_assoc. rewrite app_assoc, sub_app by lia. f_equal. f_equal. rewrite sub_app by lia. reflexivity.
Qed.

Lemma replace_substring_panics : forall f T e r new, wf_file f T -> length (f_text f) < rend r ->
  fe_replace_substring f e r new = Panic.
Proof.
  intros f T e r new [ST L] RB. unfold fe_replace_substring, root.
  rewrite (range_ok _ _ ST _ _ _ _ (At_root T)). cbn [bind plus]. unfold is_subrange_of. cbn [rstart rend].
  replace ((0 <=? rstart r) && (rend r <=? tlen T)) with false; [reflexivity|].
  symmetry. apply not_true_is_false. intros E. btrue. lia.
Qed.

(** ** Losslessness *)

Lemma node_text_ok : forall f T i p q t, wf_file f T -> At T i p q t ->
  exists x, node_text f i = Ok x /\ bytes_of x = sub p (p + tlen t) (f_text f).
Proof.
  intros f T i p q t [ST L] A. unfold node_text. rewrite (range_ok _ _ ST _ _ _ _ A). cbn [bind].
  pose proof A as G. apply AtG_At in G. apply AtG_bounds in G.
  destruct (slice_ok (as_text (f_text f)) (mkRange p (p + tlen t)) (as_text_wf _)) as (x & E & _ & _ & _ & B).
  - unfold proper. cbn. lia.
  - rewrite as_text_bytes. cbn. lia.
  - exists x. split; [exact E|]. rewrite B, as_text_bytes. reflexivity.
Qed.

Lemma spans_concat : forall (s : bytes) t i p, p + tlen t <= length s ->
  concat (map (fun x : nat * nat * nat => sub (snd (fst x)) (snd x) s) (spans t i p)) = sub p (p + tlen t) s.
Proof.
  intros s. apply (tree_ind' (fun t => forall i p, p + tlen t <= length s ->
    concat (map (fun x : nat * nat * nat => sub (snd (fst x)) (snd x) s) (spans t i p)) = sub p (p + tlen t) s)).
  - intros ty n i p L. cbn [spans tlen]. destruct (n =? 0) eqn:E; cbn.
    + apply Nat.eqb_eq in E. subst. now rewrite Nat.add_0_r, sub_empty.
    + apply app_nil_r.
  - intros ty ts F i p L. rewrite spans_node. cbn [tlen] in *. fold (tlens ts) in *. revert L. generalize (S i) as j. clear i.
    revert p. induction F as [|x l Hx F IH]; intros p j L.
    + unfold tlens. cbn. now rewrite Nat.add_0_r, sub_empty.
    + rewrite tlens_cons in *. cbn [spanss]. rewrite map_app, concat_app, Hx, IH by lia.
      rewrite sub_app by lia. now rewrite Nat.add_assoc.
Qed.

Lemma lossless : forall f T n p q t, wf_file f T -> At T n p q t ->
  exists whole ls texts, node_text f n = Ok whole
    /\ (forall l, In l ls <-> Below T n l /\ exists pl ql tl, At T l pl ql tl /\ t_children tl = [] /\ 0 < tlen tl)
    /\ (forall a b, before ls a b -> a < b)
    /\ Forall2 (fun l x => node_text f l = Ok x) ls texts
    /\ bytes_of whole = concat (map bytes_of texts).
Proof.
  intros f T n p q t W A. destruct (node_text_ok f T n p q t W A) as (whole & E & B).
  pose proof A as G0. apply AtG_At in G0. apply AtG_bounds in G0. destruct W as [ST L]. 
  assert (TX : forall sp, (forall x, In x sp -> In x (spans t n p)) -> exists texts,
     Forall2 (fun l x => node_text f l = Ok x) (map (fun x => fst (fst x)) sp) texts
     /\ map bytes_of texts = map (fun x => sub (snd (fst x)) (snd x) (f_text f)) sp).
  { induction sp as [|[[l s0] e0] sp IH]; intros H.
    - exists []. split; [constructor|reflexivity].
    - destruct IH as (texts & F & M); [intros; apply H; right; auto|].
      assert (I := H _ (or_introl eq_refl)). apply (spans_AtG t n p q) in I as (par & c & G & _ & _ & ->).
      destruct (node_text_ok f T l s0 par c (conj ST L) (AtG_in_At _ _ _ _ _ _ _ _ _ A G)) as (x & Ex & Bx).
      exists (x :: texts). split; [constructor; auto|]. cbn. now rewrite Bx, M. }
  destruct (TX _ (fun x H => H)) as (texts & F & M).
  exists whole, (map (fun x => fst (fst x)) (spans t n p)), texts. split; [exact E|]. split; [|split; [|split; [exact F|]]].
  - intros l. rewrite in_map_iff. split.
    + intros ([[l' s0] e0] & <- & I). apply (spans_AtG t n p q) in I as (par & c & G & C & LE & ->).
      split; [eapply AtG_Below; eauto|]. exists s0, par, c. split; [eapply AtG_in_At; eauto|auto].
    + intros [BL (pl & ql & tl & Al & C & LE)]. destruct (Below_AtG _ _ _ BL _ _ _ A) as (p' & q' & t' & G).
      destruct (At_unique _ _ _ _ _ _ _ _ Al (AtG_in_At _ _ _ _ _ _ _ _ _ A G)) as (-> & -> & ->).
      exists (l, p', p' + tlen t'). split; [reflexivity|]. apply (spans_AtG t n p q). eauto 6.
  - intros a b (l1 & l2 & l3 & EQ). destruct (spans_sorted t n p) as (sp & -> & S).
    apply map_eq_app in EQ as (s1 & s2 & E1 & _ & E2). apply map_eq_cons in E2 as (x & s3 & -> & <- & E3).
    apply map_eq_app in E3 as (s4 & s5 & -> & _ & E5). apply map_eq_cons in E5 as (y & s6 & -> & <- & _).
    apply (S s1 x s4 y s6). exact E1.
  - rewrite M, spans_concat by lia. exact B.
Qed.
