(** Proofs about the editor of grammar files. *)
From Coq Require Import List Arith Bool Lia.
From Verif Require Import Base BaseFacts TextModel TextSpec TextProofs EditModel TreeModel TreeSpec TreeProofs SearchModel SearchSpec SearchProofs
  TraversalProofs FileEditModel FileEditSpec FileEditProofs EditorModel EditorSpec EditorProofs DbModel AnalysisModel AnalysisSpec ViewProofs
  NestCheck FallNest NestProofs FallEditModel FallEditSpec.
Import ListNotations.

(** ** One replacement and one insertion after a node around it *)
Section EditedInside.
  Variable s : bytes.
  Variables (del : nat -> bool) (rep ins : nat -> option bytes).

  Lemma editeds_app : forall u v j k, editeds del rep ins s (u ++ v) j k = editeds del rep ins s u j k ++ editeds del rep ins s v (j + tsizes u) (k + tlens u).
  Proof.
    induction u as [|y u IH]; intros v j k.
    - unfold tsizes, tlens. cbn. now rewrite !Nat.add_0_r.
    - cbn [app editeds]. rewrite IH, tsizes_cons, tlens_cons, !Nat.add_assoc, app_assoc. reflexivity.
  Qed.

  Lemma editeds_none : forall u j k, (forall y, j <= y < j + tsizes u -> del y = false /\ rep y = None /\ ins y = None) -> k + tlens u <= length s ->
    editeds del rep ins s u j k = sub k (k + tlens u) s.
  Proof.
    induction u as [|y u IH]; intros j k H1 H2.
    - unfold tlens. cbn. rewrite Nat.add_0_r. now rewrite sub_empty.
    - rewrite tsizes_cons in H1. rewrite tlens_cons in *. cbn [editeds]. rewrite edited_none, IH.
      + rewrite sub_app by lia. now rewrite Nat.add_assoc.
      + intros z Z. apply H1. lia.
      + lia.
      + intros z Z. apply H1. lia.
      + lia.
  Qed.

  (** Changes inside one subtree leave the rest alone. *)
  Lemma edited_within : forall c t i p q pc qc tc, AtG t i p q c pc qc tc -> p + tlen t <= length s ->
    (forall j, ~ (c <= j < c + tsize tc) -> del j = false /\ rep j = None /\ ins j = None) ->
    edited del rep ins s t i p = sub p pc s ++ edited del rep ins s tc c pc ++ sub (pc + tlen tc) (p + tlen t) s.
  Proof.
    intros c. apply (tree_ind' (fun t => forall i p q pc qc tc, AtG t i p q c pc qc tc -> p + tlen t <= length s ->
      (forall j, ~ (c <= j < c + tsize tc) -> del j = false /\ rep j = None /\ ins j = None) ->
      edited del rep ins s t i p = sub p pc s ++ edited del rep ins s tc c pc ++ sub (pc + tlen tc) (p + tlen t) s)).
    - intros ty n i p q pc qc tc G L R. apply AtG_inv in G as [(-> & -> & -> & ->)|(? & ? & ? & ? & X & _)]; [|discriminate].
      rewrite !sub_empty. now rewrite app_nil_r.
    - intros ty ts F i p q pc qc tc G L R.
      apply AtG_inv in G as [(-> & -> & -> & ->)|(ty' & a & x & b & X & G)].
      + rewrite !sub_empty, app_nil_r. reflexivity.
      + injection X as <- ->. pose proof (AtG_bounds _ _ _ _ _ _ _ _ G) as BD. pose proof (tsize_pos tc).
        rewrite edited_node. destruct (R i ltac:(lia)) as (-> & -> & ->). rewrite app_nil_r.
        cbn [tlen] in *. fold (tlens (a ++ x :: b)) in *. rewrite tlens_app, tlens_cons in *.
        rewrite editeds_app. rewrite editeds_none; [|intros y Y; apply R; lia|lia]. cbn [editeds].
        rewrite Forall_forall in F. rewrite (F x ltac:(apply in_or_app; right; left; reflexivity) _ _ _ _ _ _ G) by (try lia; exact R).
        rewrite editeds_none; [|intros y Y; apply R; lia|lia].
        rewrite <- !app_assoc. rewrite app_assoc, sub_app by lia. f_equal. f_equal.
        rewrite sub_app by lia. f_equal. lia.
  Qed.
End EditedInside.

Lemma edited_local : forall s del rep ins ins' t i p, (forall j, i <= j < i + tsize t -> ins j = ins' j) ->
  edited del rep ins s t i p = edited del rep ins' s t i p.
Proof.
  intros s del rep ins ins'. apply (tree_ind' (fun t => forall i p, (forall j, i <= j < i + tsize t -> ins j = ins' j) ->
    edited del rep ins s t i p = edited del rep ins' s t i p)).
  - intros ty n i p H. cbn. rewrite H by (cbn; lia). reflexivity.
  - intros ty ts F i p H. rewrite !edited_node. cbn [tsize] in H. fold (tsizes ts) in H. rewrite (H i) by lia. destruct (del i); [reflexivity|]. destruct (rep i); [reflexivity|]. f_equal.
    assert (G : forall j q, (forall k, j <= k < j + tsizes ts -> ins k = ins' k) -> editeds del rep ins s ts j q = editeds del rep ins' s ts j q).
    { clear -F. induction F as [|x l Hx F IH]; intros j q H; [reflexivity|]. rewrite tsizes_cons in H. cbn [editeds].
      rewrite Hx, IH; [reflexivity| |]; intros k K; apply H; lia. }
    apply G. intros k K. apply H. lia.
Qed.

Lemma edited_and_inserted : forall s new add c r T pr qr tr pc qc tc,
  At T r pr qr tr -> AtG tr r pr qr c pc qc tc -> c <> r -> tlen T = length s ->
  edited (fun _ => false) (fun j => if c =? j then Some new else None) (fun j => if r =? j then Some add else None) s T 0 0
  = sub 0 pc s ++ new ++ sub (pc + tlen tc) (pr + tlen tr) s ++ add ++ sub (pr + tlen tr) (length s) s.
Proof.
  intros s new add c r T pr qr tr pc qc tc AR G NE L.
  set (rep := fun j => if c =? j then Some new else None). set (ins := fun j => if r =? j then Some add else None).
  pose proof (proj2 (AtG_At _ _ _ _ _) AR) as GR. pose proof (AtG_bounds _ _ _ _ _ _ _ _ G) as BD. pose proof (AtG_bounds _ _ _ _ _ _ _ _ GR) as BR. pose proof (tsize_pos tc) as TP.
  rewrite (edited_within s (fun _ => false) rep ins r T 0 0 None pr qr tr GR ltac:(cbn; lia)).
  2:{ intros j J. unfold rep, ins. split; [reflexivity|]. split; [destruct (c =? j) eqn:E; [apply Nat.eqb_eq in E; lia|reflexivity]|].
      destruct (r =? j) eqn:E; [apply Nat.eqb_eq in E; pose proof (tsize_pos tr); lia|reflexivity]. }
  assert (X : edited (fun _ => false) rep ins s tr r pr = edited (fun _ => false) rep (fun _ => None) s tr r pr ++ add).
  { assert (RR : rep r = None) by (unfold rep; destruct (c =? r) eqn:E; [apply Nat.eqb_eq in E; congruence|reflexivity]).
    assert (IR : ins r = Some add) by (unfold ins; rewrite Nat.eqb_refl; reflexivity).
    destruct tr as [ty n|ty ts].
    - cbn. rewrite RR, IR, app_nil_r. reflexivity.
    - rewrite !edited_node, RR, IR, app_nil_r. f_equal.
      assert (G' : forall l j q, (forall k, j <= k < j + tsizes l -> r <> k) -> editeds (fun _ => false) rep ins s l j q = editeds (fun _ => false) rep (fun _ => None) s l j q).
      { clear. induction l as [|x l IH]; intros j q H; [reflexivity|]. rewrite tsizes_cons in H. cbn [editeds]. rewrite IH by (intros k K; apply H; lia). f_equal.
        apply edited_local. intros k K. unfold ins. destruct (r =? k) eqn:E; [apply Nat.eqb_eq in E; exfalso; apply (H k); [lia|exact E]|reflexivity]. }
      apply G'. intros k K. lia. }
  rewrite X. unfold rep. rewrite (edited_one s new c tr r pr qr pc qc tc G ltac:(lia)). cbn [plus] in *.
  rewrite <- !app_assoc. rewrite app_assoc, sub_app by lia. rewrite L. reflexivity.
Qed.

(** ** The view *)
Section Proofs.
  Variable f : file.
  Variable T : tree.
  Hypothesis WF : wf_file f T.
  Hypothesis CT : char_tree (f_text f) T.
  Notation nodes := (f_nodes f).
  Let ST : stores nodes T := proj1 WF.

  Lemma view_at : forall n p q t, At T n p q t ->
    valid f n /\ ty f n = t_ty t /\ par f n = q /\ rng f n = mkRange p (p + tlen t) /\ kids f n = child_ids (S n) (t_children t).
  Proof.
    intros n p q t A. split; [exact (at_valid f T WF _ _ _ _ A)|]. unfold ty, par, rng, kids, at_node. rewrite (proj2 ST _ _ _ _ A). repeat split.
  Qed.

  Lemma kids_nil : forall n p q t, At T n p q t -> kids f n = [] -> t_children t = [].
  Proof. intros n p q t A K. destruct (view_at _ _ _ _ A) as (_ & _ & _ & _ & E). rewrite E in K. destruct (t_children t); [reflexivity|discriminate K]. Qed.

  Lemma touches_token : forall o n, touches T o n <-> token_at f o n.
  Proof.
    intros o n. split.
    - intros (p & q & t & A & C & L & R). destruct (view_at _ _ _ _ A) as (V & _ & _ & ER & EK). unfold token_at. rewrite ER, EK, C. cbn [rstart rend child_ids]. repeat split; auto; lia.
    - intros (V & K & L & R). destruct (valid_at f T WF n V) as (p & q & t & A & _). pose proof (kids_nil _ _ _ _ A K) as C. destruct (view_at _ _ _ _ A) as (_ & _ & _ & ER & _).
      rewrite ER in *. cbn [rstart rend] in *. exists p, q, t. repeat split; auto; lia.
  Qed.

  Lemma below_inside : forall a n, Below T a n <-> inside f n a.
  Proof.
    intros a n. split.
    - intros B. destruct (Below_At_l _ _ _ B) as (pa & qa & ta & AA). induction B as [p q t A|d p t e B IH A].
      + apply in_self. exact (at_valid f T WF _ _ _ _ A).
      + destruct (view_at _ _ _ _ A) as (VE & _ & PE & _ & _). clear - IH PE VE. induction IH as [V|a' p' I IH' P'].
        * eapply in_up; [apply in_self; exact VE|exact PE].
        * eapply in_up; [exact IH'|exact P'].
    - intros I. induction I as [V|a p I IH P].
      + destruct (valid_at f T WF n V) as (p & q & t & A & _). eapply Below_refl; eauto.
      + destruct (Below_At_l _ _ _ IH) as (pa & qa & ta & AA). destruct (view_at _ _ _ _ AA) as (_ & _ & PE & _ & _). rewrite P in PE. subst qa.
        apply At_parent in AA as AB. destruct AB as (pd & qd & ty & pre & post & AD & _).
        eapply Below_trans; [eapply Below_child; [eapply Below_refl; exact AD|exact AA]|exact IH].
  Qed.

  Lemma covers_holds : forall r n, covers T n r <-> holds_all f r n.
  Proof.
    intros r n. split.
    - intros (p & q & t & A & L1 & L2). destruct (view_at _ _ _ _ A) as (V & _ & _ & ER & _). unfold holds_all. rewrite ER. cbn [rstart rend]. auto.
    - intros (V & L1 & L2). destruct (valid_at f T WF n V) as (p & q & t & A & _). destruct (view_at _ _ _ _ A) as (_ & _ & _ & ER & _). rewrite ER in *. cbn [rstart rend] in *.
      exists p, q, t. auto.
  Qed.

  Lemma inside_range : forall a n, inside f n a -> rstart (rng f a) <= rstart (rng f n) /\ rend (rng f n) <= rend (rng f a).
  Proof.
    intros a n I. apply below_inside in I. destruct (Below_At_l _ _ _ I) as (pa & qa & ta & AA). destruct (Below_At _ _ _ I) as (pn & qn & tn & AN).
    pose proof (Below_range _ _ _ _ _ _ _ _ _ I AA AN) as R. destruct (view_at _ _ _ _ AA) as (_ & _ & _ & EA & _). destruct (view_at _ _ _ _ AN) as (_ & _ & _ & EN & _).
    rewrite EA, EN. cbn [rstart rend]. lia.
  Qed.

  Lemma rng_in : forall n, valid f n -> rstart (rng f n) <= rend (rng f n) /\ rend (rng f n) <= length (f_text f).
  Proof.
    intros n V. destruct (valid_at f T WF n V) as (p & q & t & A & _). destruct (view_at _ _ _ _ A) as (_ & _ & _ & ER & _). rewrite ER. cbn [rstart rend].
    pose proof (At_within f T WF _ _ _ _ A). lia.
  Qed.

  Lemma root_range : rng f 0 = mkRange 0 (length (f_text f)).
  Proof. destruct (view_at _ _ _ _ (At_root T)) as (_ & _ & _ & ER & _). rewrite ER, (proj2 WF). reflexivity. Qed.

  Lemma range_aligned : forall n, valid f n -> aligned (f_text f) (rstart (rng f n)) /\ aligned (f_text f) (rend (rng f n)).
  Proof.
    intros n V. destruct (valid_at f T WF n V) as (p & q & t & A & _). destruct (view_at _ _ _ _ A) as (_ & _ & _ & ER & _). rewrite ER. exact (CT _ _ _ _ A).
  Qed.

  (** Children follow each other and cover their parent. *)
  Lemma kids_split : forall n pre c post, kids f n = pre ++ c :: post ->
    exists p q ty a x b, At T n p q (Node ty (a ++ x :: b)) /\ At T c (p + tlens a) (Some n) x /\ c = S n + tsizes a
      /\ pre = child_ids (S n) a /\ post = child_ids (S n + tsizes a + tsize x) b.
  Proof.
    intros n pre c post K. assert (V : valid f n).
    { unfold kids, at_node in K. destruct (nth_error nodes n) eqn:E; [apply nth_error_Some; congruence|destruct pre; discriminate K]. }
    destruct (valid_at f T WF n V) as (p & q & t & A & _). destruct (view_at _ _ _ _ A) as (_ & _ & _ & _ & EK). rewrite EK in K.
    assert (X : forall ts i pre c post, child_ids i ts = pre ++ c :: post -> exists a x b, ts = a ++ x :: b /\ pre = child_ids i a /\ c = i + tsizes a /\ post = child_ids (i + tsizes a + tsize x) b).
    { clear. induction ts as [|t ts IH]; intros i pre c post E; [destruct pre; discriminate E|]. cbn [child_ids] in E. destruct pre as [|y pre].
      - cbn in E. injection E as <- <-. exists [], t, ts. unfold tsizes. cbn. rewrite !Nat.add_0_r. auto.
      - cbn in E. injection E as <- E. destruct (IH _ _ _ _ E) as (a & x & b & -> & -> & -> & ->). exists (t :: a), x, b. rewrite tsizes_cons. cbn [child_ids app]. rewrite !Nat.add_assoc. auto. }
    destruct (X _ _ _ _ _ K) as (a & x & b & ET & -> & -> & ->). destruct t as [ty n'|ty ts]; [destruct a; discriminate ET|]. cbn [t_children] in ET. subst ts.
    exists p, q, ty, a, x, b. repeat (split; [solve [auto]|]). split; [eapply At_child; eauto|]. auto.
  Qed.

  Lemma kids_before : forall n pre c m d post, kids f n = pre ++ c :: m ++ d :: post -> rend (rng f c) <= rstart (rng f d) /\ c < d.
  Proof.
    intros n pre c m d post K. pose proof K as K2. rewrite app_comm_cons, app_assoc in K2.
    destruct (kids_split _ _ _ _ K) as (p & q & ty & a & x & b & A & AC & EC & EP & _). destruct (kids_split _ _ _ _ K2) as (p' & q' & ty' & a' & x' & b' & A' & AD & ED & EP' & _).
    destruct (At_unique _ _ _ _ _ _ _ _ A A') as (<- & <- & E). injection E as <- E.
    destruct (view_at _ _ _ _ AC) as (_ & _ & _ & RC & _). destruct (view_at _ _ _ _ AD) as (_ & _ & _ & RD & _). rewrite RC, RD. cbn [rstart rend].
    assert (LA : length a < length a').
    { rewrite <- (child_ids_length a (S n)), <- (child_ids_length a' (S n)), <- EP, <- EP', !app_length. cbn [length]. lia. }
    assert (Y : exists m', a' = a ++ x :: m').
    { clear - E LA. revert a' E LA. induction a as [|y a IH]; intros [|y' a'] E LA; cbn in *; try lia; injection E as <- E; [exists a'; reflexivity|].
      destruct (IH a' E ltac:(lia)) as (m' & ->). exists m'. reflexivity. }
    destruct Y as (m' & ->). rewrite tlens_app, tlens_cons. rewrite tsizes_app, tsizes_cons in ED. pose proof (tsize_pos x). lia.
  Qed.

  Lemma leaf_result : forall o, o <= length (f_text f) -> exists l, find_leaf_at_offset nodes root o = Ok l /\
    (forall n, In n (leaves_list l) <-> token_at f o n) /\ (forall a b, l = LBetween a b -> a < b).
  Proof.
    intros o LE. destruct (find_leaf_spec nodes T ST o 0 0 None T (At_root T)) as (l & E & I & _ & B); [rewrite (proj2 WF); cbn; lia|].
    exists l. split; [exact E|]. split.
    - intros n. rewrite I, touches_token. split; [tauto|]. intros H. split; [|exact H]. destruct (valid_at f T WF n (proj1 H)) as (p & q & t & A & _). eapply Below_root; eauto.
    - intros a b X. exact (proj1 (B a b X)).
  Qed.

  (** *** Swap alternatives *)
  Lemma bar_fun : forall o a b, bar_at f o a -> bar_at f o b -> a = b.
  Proof. intros o a b (A1 & A2 & A3) (B1 & B2 & B3). specialize (A3 b B1 B2). specialize (B3 a A1 A2). lia. Qed.

  Lemma find_pipe_ok : forall o, o <= length (f_text f) -> exists x, find_pipe f o = Ok x /\
    match x with Some p => bar_at f o p | None => forall p, ~ bar_at f o p end.
  Proof.
    intros o LE. destruct (leaf_result o LE) as (l & E & I & B). unfold find_pipe. rewrite E. cbn [bind].
    destruct l as [|n|a b]; cbn [leaves_list] in I.
    - exists None. split; [reflexivity|]. intros p (H & _). apply I in H. destruct H.
    - assert (H : token_at f o n) by (apply I; left; reflexivity). rewrite (ty_v f n (proj1 H)). cbn [bind]. destruct (ty f n =? PIPE) eqn:P.
      + apply Nat.eqb_eq in P. exists (Some n). split; [reflexivity|]. split; [exact H|]. split; [exact P|]. intros q Q _. apply I in Q. destruct Q as [<-|[]]. lia.
      + apply Nat.eqb_neq in P. exists None. split; [reflexivity|]. intros p (X & Y & _). apply I in X. destruct X as [<-|[]]. contradiction.
    - assert (HA : token_at f o a) by (apply I; left; reflexivity). assert (HB : token_at f o b) by (apply I; right; left; reflexivity). specialize (B a b eq_refl).
      rewrite (ty_v f a (proj1 HA)). cbn [bind]. destruct (ty f a =? PIPE) eqn:P.
      + apply Nat.eqb_eq in P. exists (Some a). split; [reflexivity|]. split; [exact HA|]. split; [exact P|]. intros q Q _. apply I in Q. destruct Q as [<-|[<-|[]]]; lia.
      + apply Nat.eqb_neq in P. rewrite (ty_v f b (proj1 HB)). cbn [bind]. destruct (ty f b =? PIPE) eqn:P'.
        * apply Nat.eqb_eq in P'. exists (Some b). split; [reflexivity|]. split; [exact HB|]. split; [exact P'|]. intros q Q QP. apply I in Q. destruct Q as [<-|[<-|[]]]; [contradiction|lia].
        * apply Nat.eqb_neq in P'. exists None. split; [reflexivity|]. intros p (X & Y & _). apply I in X. destruct X as [<-|[<-|[]]]; contradiction.
  Qed.

  Lemma range_ltb_le : forall a b, range_ltb a b = (rend a <=? rstart b).
  Proof. intros a b. unfold range_ltb, range_cmp. destruct (rend a <=? rstart b); [reflexivity|]. destruct (rend b <=? rstart a); [reflexivity|]. destruct (range_eqb a b); reflexivity. Qed.

  Lemma neighbours_none : forall pr l, (forall n, In n l -> valid f n) ->
    (forall n, In n l -> range_ltb (rng f n) pr = false) \/ (forall n, In n l -> range_ltb pr (rng f n) = false) -> neighbours_around f pr l = Ok None.
  Proof.
    intros pr l. induction l as [|a l IH]; intros V H; [reflexivity|]. cbn [neighbours_around]. destruct l as [|b l]; [reflexivity|].
    rewrite (rng_v f a), (rng_v f b) by (apply V; cbn; auto). cbn [bind].
    assert (E : range_ltb (rng f a) pr && range_ltb pr (rng f b) = false).
    { destruct H as [H|H]; [rewrite (H a) by (left; reflexivity); reflexivity|rewrite (H b) by (right; left; reflexivity); apply andb_false_r]. }
    rewrite E. apply IH; [intros n I; apply V; right; exact I|]. destruct H as [H|H]; [left|right]; intros n I; apply H; right; exact I.
  Qed.

  Lemma neighbours_some : forall pr A l r B, (forall n, In n (A ++ l :: r :: B) -> valid f n) ->
    (forall n, In n A -> range_ltb pr (rng f n) = false) -> range_ltb pr (rng f l) = false -> range_ltb (rng f l) pr = true -> range_ltb pr (rng f r) = true ->
    neighbours_around f pr (A ++ l :: r :: B) = Ok (Some (l, r)).
  Proof.
    intros pr A l r B V HA HL HL2 HR. induction A as [|a A IH].
    - cbn [app neighbours_around]. rewrite (rng_v f l), (rng_v f r) by (apply V; cbn; auto). cbn [bind]. rewrite HL2, HR. reflexivity.
    - cbn [app]. remember (A ++ l :: r :: B) as m eqn:EM. cbn [neighbours_around]. destruct m as [|b m]; [destruct A; discriminate EM|].
      rewrite (rng_v f a), (rng_v f b); [|apply V; cbn [app]; rewrite <- EM; right; left; reflexivity|apply V; left; reflexivity]. cbn [bind].
      assert (HB : range_ltb pr (rng f b) = false).
      { destruct A as [|a' A]; cbn in EM; injection EM as -> _; [exact HL|apply HA; right; left; reflexivity]. }
      rewrite HB, andb_false_r. apply IH; [|intros n I; apply HA; right; exact I]. intros n I. apply V. rewrite EM in I. right. exact I.
  Qed.

  Lemma around_bar : forall o p b A B, bar_at f o p -> par f p = Some b -> kids f b = A ++ p :: B ->
    (forall n, In n A -> range_ltb (rng f n) (rng f p) = true /\ range_ltb (rng f p) (rng f n) = false) /\
    (forall n, In n B -> range_ltb (rng f p) (rng f n) = true /\ range_ltb (rng f n) (rng f p) = false).
  Proof.
    intros o p b A B ((VP & _ & LP & _) & _) PP K. split; intros n I; apply in_split in I; destruct I as (x & y & ->); rewrite !range_ltb_le.
    - rewrite <- app_assoc in K. cbn [app] in K. destruct (kids_before _ _ _ _ _ _ K) as (L & _). assert (VN : valid f n) by (apply (kids_valid f T WF b); rewrite K; apply in_or_app; right; left; reflexivity).
      pose proof (rng_in n VN). split; [apply Nat.leb_le; exact L|apply Nat.leb_gt; lia].
    - destruct (kids_before _ _ _ _ _ _ K) as (L & _). assert (VN : valid f n) by (apply (kids_valid f T WF b); rewrite K; apply in_or_app; right; right; apply in_or_app; right; left; reflexivity).
      pose proof (rng_in n VN). split; [apply Nat.leb_le; exact L|apply Nat.leb_gt; lia].
  Qed.

  Lemma split_unique : forall (A A' B B' : list nat) p, NoDup (A ++ p :: B) -> A ++ p :: B = A' ++ p :: B' -> A = A' /\ B = B'.
  Proof.
    induction A as [|a A IH]; intros [|a' A'] B B' p ND E; cbn in *.
    - injection E as ->. auto.
    - injection E as -> ->. inversion ND as [|? ? N _]; subst. exfalso. apply N. apply in_or_app. right. left. reflexivity.
    - injection E as -> <-. inversion ND as [|? ? N _]; subst. exfalso. apply N. apply in_or_app. right. left. reflexivity.
    - injection E as <- E. inversion ND as [|? ? _ ND']; subst. destruct (IH _ _ _ _ ND' E) as (-> & ->). auto.
  Qed.

  Lemma last_split : forall (l : list nat), l = [] \/ exists a x, l = a ++ [x].
  Proof. intros l. induction l as [|y a _] using rev_ind; [left; reflexivity|right; eauto]. Qed.

  (** The expressions around a bar. *)
  Lemma bar_parent : forall o p b, bar_at f o p -> par f p = Some b -> exists A B, kids f b = A ++ p :: B /\ exprs f b = filter (fun c => is_expr (ty f c)) A ++ filter (fun c => is_expr (ty f c)) B.
  Proof.
    intros o p b (X & Y & _) P. destruct (par_in f T WF p b (proj1 X) P) as (_ & _ & I). apply in_split in I. destruct I as (A & B & K). exists A, B. split; [exact K|].
    unfold exprs. rewrite K, filter_app. cbn [filter]. rewrite Y. reflexivity.
  Qed.

  Lemma find_swappable_ok : forall o, o <= length (f_text f) -> exists x, find_swappable_nodes f o = Ok x /\
    match x with Some (l, r) => swappable f o l r | None => forall l r, ~ swappable f o l r end.
  Proof.
    intros o LE. unfold find_swappable_nodes. destruct (find_pipe_ok o LE) as (x & -> & H). cbn [bind]. destruct x as [p|].
    2:{ exists None. split; [reflexivity|]. intros l r (p & X & _). exact (H p X). }
    assert (VP : valid f p) by (destruct H as ((V & _) & _); exact V). rewrite (par_v f p VP). cbn [bind]. destruct (par f p) as [b|] eqn:PP.
    2:{ exists None. split; [reflexivity|]. intros l r (p' & X & b & pre & m1 & m2 & post & Y & _). rewrite (bar_fun _ _ _ X H) in Y. congruence. }
    destruct (par_in f T WF p b VP PP) as (VB & _ & _). rewrite (ty_v f b VB). cbn [bind]. destruct (ty f b =? BLOCK_EXPR) eqn:TB; cbn [negb].
    2:{ apply Nat.eqb_neq in TB. exists None. split; [reflexivity|]. intros l r (p' & X & b' & pre & m1 & m2 & post & Y & Z & _). rewrite (bar_fun _ _ _ X H) in Y. congruence. }
    apply Nat.eqb_eq in TB. rewrite (children_expr_v f T WF b VB). cbn [bind]. rewrite (rng_v f p VP). cbn [bind].
    destruct (bar_parent o p b H PP) as (A & B & K & ->). destruct (around_bar o p b A B H PP K) as (HA & HB).
    set (g := fun c => is_expr (ty f c)) in *.
    assert (VK : forall n, In n (filter g A ++ filter g B) -> valid f n).
    { intros n I. apply (kids_valid f T WF b). rewrite K. apply in_app_or in I. destruct I as [I|I]; apply filter_In in I; apply in_or_app; [left|right; right]; tauto. }
    assert (UN : forall l r, swappable f o l r -> exists A' B', filter g A = A' ++ [l] /\ filter g B = r :: B').
    { intros l r (p' & X & b' & pre & m1 & m2 & post & Y & _ & KB & EL & ER & N). rewrite (bar_fun _ _ _ X H) in Y, KB. rewrite PP in Y. injection Y as <-.
      assert (KB' : kids f b = (pre ++ l :: m1) ++ p :: m2 ++ r :: post) by (rewrite KB, <- app_assoc; reflexivity).
      destruct (split_unique A (pre ++ l :: m1) B (m2 ++ r :: post) p) as (-> & ->); [rewrite <- K; apply (kids_nodup f T WF)|rewrite <- K; exact KB'|].
      assert (Z : forall m, (forall x, In x m -> is_expr (ty f x) = false) -> filter g m = []).
      { clear. induction m as [|x m IH]; intros N; [reflexivity|]. cbn [filter]. unfold g at 1. rewrite (N x) by (left; reflexivity). apply IH. intros y I. apply N. right. exact I. }
      exists (filter g pre), (filter g post). rewrite !filter_app. cbn [filter]. change (is_expr (ty f l)) with (g l) in EL. change (is_expr (ty f r)) with (g r) in ER. rewrite EL, ER. rewrite (Z m1), (Z m2); [auto| |]; intros x I; apply N; apply in_or_app; auto. }
    destruct (last_split (filter g A)) as [EA|(A' & l & EA)].
    { exists None. rewrite EA in *. cbn [app] in *. split.
      - apply neighbours_none; [exact VK|]. left. intros n I. apply HB. apply filter_In in I. tauto.
      - intros l r S. destruct (UN l r S) as (X & Y & Z & _). destruct X; discriminate Z. }
    destruct (filter g B) as [|r B'] eqn:EB.
    { exists None. rewrite app_nil_r in *. split.
      - apply neighbours_none; [exact VK|]. right. intros n I. apply HA. apply filter_In in I. tauto.
      - intros l' r S. destruct (UN l' r S) as (X & Y & _ & Z). discriminate Z. }
    exists (Some (l, r)). assert (IL : In l A /\ is_expr (ty f l) = true) by (apply (filter_In g); rewrite EA; apply in_or_app; right; left; reflexivity).
    assert (IR : In r B /\ is_expr (ty f r) = true) by (apply (filter_In g); rewrite EB; left; reflexivity). split.
    - rewrite EA in *. rewrite <- app_assoc in *. cbn [app] in *. apply neighbours_some.
      + exact VK.
      + intros n I. apply HA. assert (J : In n (filter g A)) by (rewrite EA; apply in_or_app; left; exact I). apply filter_In in J. tauto.
      + apply HA. tauto.
      + apply HA. tauto.
      + apply HB. tauto.
    - exists p. split; [exact H|].
      assert (SA : forall (m : list nat) A' l, filter g m = A' ++ [l] -> exists pre m1, m = pre ++ l :: m1 /\ forall x, In x m1 -> is_expr (ty f x) = false).
      { clear. induction m as [|y m IH]; intros A' l E; [destruct A'; discriminate E|]. cbn [filter] in E. destruct (g y) eqn:G.
        - destruct A' as [|z A']; cbn in E.
          + injection E as -> E. exists [], m. split; [reflexivity|]. intros x I. destruct (is_expr (ty f x)) eqn:X; [|reflexivity]. assert (J : In x (filter g m)) by (apply filter_In; auto). rewrite E in J. destruct J.
          + injection E as -> E. destruct (IH _ _ E) as (pre & m1 & -> & N). exists (z :: pre), m1. auto.
        - destruct (IH _ _ E) as (pre & m1 & -> & N). exists (y :: pre), m1. auto. }
      assert (SB : forall (m : list nat) r B', filter g m = r :: B' -> exists m2 post, m = m2 ++ r :: post /\ forall x, In x m2 -> is_expr (ty f x) = false).
      { clear. induction m as [|y m IH]; intros r B' E; [discriminate E|]. cbn [filter] in E. destruct (g y) eqn:G.
        - injection E as -> _. exists [], m. split; [reflexivity|]. intros x [].
        - destruct (IH _ _ E) as (m2 & post & -> & N). exists (y :: m2), post. split; [reflexivity|]. intros x [<-|I]; [exact G|exact (N x I)]. }
      destruct (SA _ _ _ EA) as (pre & m1 & EA1 & N1). destruct (SB _ _ _ EB) as (m2 & post & EB1 & N2).
      exists b, pre, m1, m2, post. split; [exact PP|]. split; [exact TB|]. split; [rewrite K, EA1, EB1, <- app_assoc; reflexivity|]. split; [tauto|]. split; [tauto|].
      intros x I. apply in_app_or in I. destruct I; auto.
  Qed.

  Lemma swap_alternatives_ok : forall o, o <= length (f_text f) ->
    (exists l r ops, swappable f o l r /\ swap_alternatives f o false = Ok (Some Available) /\ swap_alternatives f o true = Ok (Some (Applied ops))
       /\ apply ops (as_text (f_text f)) = Ok (exchanged f l r))
    \/ ((forall l r, ~ swappable f o l r) /\ swap_alternatives f o false = Ok None /\ swap_alternatives f o true = Ok None).
  Proof.
    intros o LE. unfold swap_alternatives. destruct (find_swappable_ok o LE) as ([(l & r)|] & -> & H); cbn [bind negb]; [left|right; auto].
    pose proof H as (p & BA & b & pre & m1 & m2 & post & PP & _ & K & _). assert (VP : valid f p) by (destruct BA as ((V & _) & _); exact V).
    destruct (par_in f T WF p b VP PP) as (VB & _ & _).
    destruct (swap_text f T WF CT b (kids f b) (length pre) (length pre + S (length m1 + S (length m2))) l r) as (l1 & l2 & r1 & r2 & ops & RL & RR & _ & _ & _ & _ & E & EA).
    - exact (kids_v f b VB).
    - lia.
    - rewrite K, nth_error_app2 by lia. rewrite Nat.sub_diag. reflexivity.
    - rewrite K, nth_error_app2 by lia. replace (_ - length pre) with (S (length m1 + S (length m2))) by lia. cbn [nth_error]. rewrite nth_error_app2 by lia.
      replace (_ - length m1) with (S (length m2)) by lia. cbn [nth_error]. rewrite nth_error_app2 by lia. rewrite Nat.sub_diag. reflexivity.
    - exists l, r, ops. split; [exact H|]. split; [reflexivity|]. split; [exact E|]. rewrite EA. f_equal. unfold exchanged, str.
      destruct RL as (pl & ql & tl & AL & EL). destruct RR as (pr & qr & tr & AR & ER). destruct (view_at _ _ _ _ AL) as (_ & _ & _ & -> & _). destruct (view_at _ _ _ _ AR) as (_ & _ & _ & -> & _).
      injection EL as -> ->. injection ER as -> ->. reflexivity.
  Qed.
End Proofs.
