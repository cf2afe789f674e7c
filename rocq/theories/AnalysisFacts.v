(** What the result of [collect_all_diagnostics] contains, message by message. *)
From Coq Require Import List Arith Bool NArith Lia Sorted Permutation.
From Verif Require Import Base BaseFacts TextModel TreeModel SearchModel IndexModel DbModel DbSpec DbProofs DbTrace AnalysisModel
  TextSpec TreeSpec SearchSpec FileEditSpec EditorSpec IndexSpec AnalysisSpec
  TextProofs TreeProofs SearchProofs TraversalProofs EditorProofs IndexProofs ViewProofs AnalysisProofs CollectProofs RunProofs MeansFacts.
Import ListNotations.


Lemma picks_iff : forall A (P : list A -> A -> Prop) pre l out, picks P pre l out ->
  forall x, In x out <-> exists l1 l2, l = l1 ++ x :: l2 /\ P (pre ++ l1) x.
Proof.
  intros A P pre l out H. induction H as [pre|pre y l out Y H IH|pre y l out Y H IH]; intros x.
  - split; [intros []|]. intros ([|z l1] & l2 & E & _); discriminate E.
  - cbn [In]. rewrite IH. split.
    + intros [<-|(l1 & l2 & -> & X)].
      * exists [], l. split; [reflexivity|]. rewrite app_nil_r. exact Y.
      * exists (y :: l1), l2. split; [reflexivity|]. rewrite <- (app_assoc pre [y] l1) in X. exact X.
    + intros ([|z l1] & l2 & E & X).
      * left. injection E as <- _. reflexivity.
      * injection E as <- ->. right. exists l1, l2. split; [reflexivity|]. rewrite <- (app_assoc pre [y] l1). exact X.
  - rewrite IH. split.
    + intros (l1 & l2 & -> & X). exists (y :: l1), l2. split; [reflexivity|]. rewrite <- (app_assoc pre [y] l1) in X. exact X.
    + intros ([|z l1] & l2 & E & X).
      * injection E as <- _. rewrite app_nil_r in X. destruct (Y X).
      * injection E as <- ->. exists l1, l2. split; [reflexivity|]. rewrite <- (app_assoc pre [y] l1). exact X.
Qed.

Lemma unused_iff : forall f l ds, unused_rules f l ds ->
  forall d, In d ds <-> exists r i, In r l /\ hd_error (rules f) <> Some r /\ ~ used f r /\ kid f IDENT r = Some i /\ d = warning_at f i MUnusedRule.
Proof.
  intros f l ds H. induction H as [|r i l ds HD NU K H IH|r l ds O H IH]; intros d.
  - split; [intros []|]. intros (r & i & [] & _).
  - cbn [In]. rewrite IH. split.
    + intros [<-|(r' & i' & J & X)]; [exists r, i; split; [left; reflexivity|]; repeat split; assumption|].
      exists r', i'. split; [right; exact J|exact X].
    + intros (r' & i' & [<-|J] & HD' & NU' & K' & ->).
      * left. rewrite K in K'. injection K' as <-. reflexivity.
      * right. exists r', i'. repeat split; assumption.
  - rewrite IH. split.
    + intros (r' & i' & J & X). exists r', i'. split; [right; exact J|exact X].
    + intros (r' & i' & [<-|J] & HD' & NU' & K' & ->).
      * destruct O as [X|[X|X]]; [destruct (HD' X)|destruct (NU' X)|unfold name_of in X; rewrite K' in X; discriminate X].
      * exists r', i'. repeat split; assumption.
Qed.

Lemma once_iff : forall f l ds, used_once f l ds ->
  forall d, In d ds <-> exists b c, In b l /\ only_call f c b /\ d = warning_at f c (MContextOnce b).
Proof.
  intros f l ds H. induction H as [|b c l ds O H IH|b l ds O H IH]; intros d.
  - split; [intros []|]. intros (b & c & [] & _).
  - cbn [In]. rewrite IH. split.
    + intros [<-|(b' & c' & J & X)]; [exists b, c; split; [left; reflexivity|]; split; [exact O|reflexivity]|].
      exists b', c'. split; [right; exact J|exact X].
    + intros (b' & c' & [<-|J] & O' & ->).
      * left. destruct O as (A & B & C), O' as (A' & B' & C'). rewrite (C _ A' B'). reflexivity.
      * right. exists b', c'. repeat split; try assumption; apply O'.
  - rewrite IH. split.
    + intros (b' & c' & J & X). exists b', c'. split; [right; exact J|exact X].
    + intros (b' & c' & [<-|J] & O' & ->).
      * destruct (O c' O').
      * exists b', c'. split; [exact J|]. split; [exact O'|reflexivity].
Qed.

(** Which query a message comes from *)
Definition message_key (m : message) (k : key) : Prop :=
  match m with
  | MDuplicateToken => k = QLex
  | MDuplicateRule => k = QSyn
  | MContextOnce _ => k = QCtx
  | MUnusedRule => k = QUnused
  | MUnresolvedReference => (exists n, k = QRef n) \/ (exists n, k = QCall n)
  | MWrongArgs _ _ | MContextString | MPrevIs | MExpectedArgs _ _ => exists n, k = QCall n
  | MUnresolvedTrait => exists n, k = QTraits n
  | _ => exists n, k = QPratt n
  end.

Lemma arity_message : forall f k n d, In d (arity_error f k n) -> exists a b, d_message d = MWrongArgs a b.
Proof.
  intros f k n d J. unfold arity_error in J. destruct (length (exprs f n) =? k); [destruct J|]. destruct J as [<-|[]]. eexists. eexists. reflexivity.
Qed.

Lemma says_message : forall f k v ds d, says f k v ds -> In d ds -> message_key (d_message d) k.
Proof.
  intros f k v ds d H J. destruct k as [| | | |n|n|n|n|n]; cbn [says] in H.
  - destruct H as (o & _ & ->). apply in_map_iff in J. destruct J as (t & <- & _). reflexivity.
  - destruct H as (o & _ & F). apply In_nth_error in J. destruct J as (i & J).
    assert (X : exists r, exists i, kid f IDENT r = Some i /\ d = error_at f i MDuplicateRule).
    { clear - F J. revert i J. induction F as [|r d' o ds H F IH]; intros [|i] J; try discriminate J; [injection J as <-; exists r; exact H|exact (IH i J)]. }
    destruct X as (r & i' & _ & ->). reflexivity.
  - destruct H as (l & _ & _ & U). apply (once_iff f _ _ U) in J. destruct J as (b & c & _ & _ & ->). reflexivity.
  - apply (unused_iff f _ _ H) in J. destruct J as (r & i & _ & _ & _ & _ & ->). reflexivity.
  - destruct H as (o & _ & _ & [(_ & _ & ->)|(_ & ->)]); [|destruct J]. destruct J as [<-|[]]. left. exists n. reflexivity.
  - destruct H as (o & _ & M).
    assert (AR : forall k, In d (arity_error f k n) -> message_key (d_message d) (QCall n)).
    { intros k X. destruct (arity_message _ _ _ _ X) as (a & b & ->). exists n. reflexivity. }
    destruct M; try (exact (AR _ J)).
    + apply in_app_iff in J. destruct J as [J|[<-|[]]]; [exact (AR _ J)|exists n; reflexivity].
    + apply repeat_spec in J. subst d. exists n. reflexivity.
    + destruct (length (params f r) =? length (exprs f n)); [destruct J|]. destruct J as [<-|[]]. exists n. reflexivity.
    + destruct J as [<-|[]]. right. exists n. reflexivity.
  - destruct H as (o & _ & M). destruct M; try (destruct J; fail); try (destruct J as [<-|[]]; exists n; reflexivity).
    destruct (priority_of f x); [destruct J as [<-|[]]; exists n; reflexivity|destruct J].
  - destruct H as (o & _ & _ & ->). destruct J.
  - destruct H as (r & ts & _ & _ & M). induction M as [|i l t ts ds L M IH|i l ts ds L M IH]; [destruct J|exact (IH J)|].
    destruct J as [<-|J]; [exists n; reflexivity|exact (IH J)].
Qed.

Section Reported.
  Variables (f : file) (T : tree).
  Hypothesis WF : wf_file f T.
  Hypothesis CT : char_tree (f_text f) T.
  Hypothesis CO : complete f.
  Variables ds out : list diagnostic.
  Hypothesis R : collect_returns f ds out.

  Lemma out_perm : Permutation out ds.
  Proof. destruct R as (cs & l & i & c0 & t & before & during & after & g & cl & _ & _ & _ & _ & _ & _ & ->). apply sort_diags_perm. Qed.

  Lemma forall2_in : forall A B (Q : A -> B -> Prop) l l', Forall2 Q l l' -> forall a, In a l -> exists b, In b l' /\ Q a b.
  Proof.
    intros A B Q l l' F. induction F as [|x y l l' H F IH]; intros a J; [destruct J|]. destruct J as [<-|J].
    - exists y. split; [left; reflexivity|exact H].
    - destruct (IH a J) as (b & X & Y). exists b. split; [right; exact X|exact Y].
  Qed.
  Lemma forall2_in_r : forall A B (Q : A -> B -> Prop) l l', Forall2 Q l l' -> forall b, In b l' -> exists a, In a l /\ Q a b.
  Proof.
    intros A B Q l l' F. induction F as [|x y l l' H F IH]; intros a J; [destruct J|]. destruct J as [<-|J].
    - exists x. split; [left; reflexivity|exact H].
    - destruct (IH a J) as (b & X & Y). exists b. split; [right; exact X|exact Y].
  Qed.

  Lemma out_says : forall d, In d out <-> exists k v x, reported f k /\ says f k v x /\ In d x.
  Proof.
    intros d. destruct (collect_spec f T WF CT CO ds out R) as (ks & dss & ND & KS & F & E).
    split.
    - intros J. apply (Permutation_in _ out_perm) in J. rewrite E in J. apply in_concat in J. destruct J as (x & X & J).
      destruct (forall2_in_r _ _ _ _ _ F x X) as (k & K & v & _ & S1). exists k, v, x. split; [apply KS; exact K|]. split; assumption.
    - intros (k & v & x & K & S1 & J). apply (Permutation_in _ (Permutation_sym out_perm)). rewrite E. apply in_concat.
      apply KS in K. destruct (forall2_in _ _ _ _ _ F k K) as (x' & X & v' & _ & S2). rewrite <- (says_fun f _ _ _ _ _ S1 S2) in X. exists x. split; assumption.
  Qed.

  Lemma says_total : forall k, reported f k -> exists v x, says f k v x.
  Proof.
    intros k K. destruct (says_ok f T WF CT CO k) as (v & x & _ & S1); [|exists v, x; exact S1].
    destruct k; cbn [reported] in K; try (left; exact K); [right; left; reflexivity|right; right; reflexivity|destruct K].
  Qed.

  Lemma out_unused : forall d, In d out /\ d_message d = MUnusedRule <->
    exists r i, In r (rules f) /\ hd_error (rules f) <> Some r /\ ~ used f r /\ kid f IDENT r = Some i /\ d = warning_at f i MUnusedRule.
  Proof.
    intros d. rewrite out_says. split.
    - intros ((k & v & x & K & S1 & J) & M). pose proof (says_message _ _ _ _ _ S1 J) as MK. rewrite M in MK. cbn in MK. subst k.
      apply (unused_iff f _ _ S1). exact J.
    - intros X. assert (M : d_message d = MUnusedRule) by (destruct X as (r & i & _ & _ & _ & _ & ->); reflexivity).
      split; [|exact M]. destruct (says_total QUnused I) as (v & x & S1). exists QUnused, v, x. split; [exact I|]. split; [exact S1|].
      apply (unused_iff f _ _ S1). exact X.
  Qed.

  Lemma out_tokens : forall d, In d out /\ d_message d = MDuplicateToken <->
    exists pre t post, tokens f = pre ++ t :: post /\ repeated f pre t /\ d = error_at f t MDuplicateToken.
  Proof.
    intros d. rewrite out_says. split.
    - intros ((k & v & x & K & S1 & J) & M). pose proof (says_message _ _ _ _ _ S1 J) as MK. rewrite M in MK. cbn in MK. subst k.
      destruct S1 as (o & P & ->). apply in_map_iff in J. destruct J as (t & <- & J). apply (picks_iff _ _ _ _ _ P) in J.
      destruct J as (l1 & l2 & E & X). exists l1, t, l2. split; [exact E|]. split; [exact X|reflexivity].
    - intros (l1 & t & l2 & E & X & ->). split; [|reflexivity]. destruct (says_total QLex I) as (v & x & o & P & ->).
      exists QLex, v, (map (fun t => error_at f t MDuplicateToken) o). split; [exact I|]. split; [exists o; split; [exact P|reflexivity]|].
      apply in_map_iff. exists t. split; [reflexivity|]. apply (picks_iff _ _ _ _ _ P).
      exists l1, l2. split; [exact E|exact X].
  Qed.

  Lemma out_rules : forall d, In d out /\ d_message d = MDuplicateRule <->
    looks_for_rules f /\ exists pre r post i, rules f = pre ++ r :: post /\ repeated f pre r /\ kid f IDENT r = Some i /\ d = error_at f i MDuplicateRule.
  Proof.
    intros d. rewrite out_says. split.
    - intros ((k & v & x & K & S1 & J) & M). pose proof (says_message _ _ _ _ _ S1 J) as MK. rewrite M in MK. cbn in MK. subst k.
      split; [exact K|]. destruct S1 as (o & P & F). destruct (forall2_in_r _ _ _ _ _ F d J) as (r & X & i & KI & ->).
      apply (picks_iff _ _ _ _ _ P) in X. destruct X as (l1 & l2 & E & X). exists l1, r, l2, i. repeat split; assumption.
    - intros (L & l1 & r & l2 & i & E & X & KI & ->). split; [|reflexivity]. destruct (says_total QSyn L) as (v & x & o & P & F).
      exists QSyn, v, x. split; [exact L|]. split; [exists o; split; assumption|].
      assert (Y : In r o) by (apply (picks_iff _ _ _ _ _ P); exists l1, l2; split; [exact E|exact X]).
      destruct (forall2_in _ _ _ _ _ F r Y) as (d & D & i' & KI' & ->). rewrite KI in KI'. injection KI' as <-. exact D.
  Qed.

  Lemma out_contexts : forall d b, In d out /\ d_message d = MContextOnce b <->
    needs_contexts f /\ exists c, only_call f c b /\ d = warning_at f c (MContextOnce b).
  Proof.
    intros d b. rewrite out_says. split.
    - intros ((k & v & x & K & S1 & J) & M). pose proof (says_message _ _ _ _ _ S1 J) as MK. rewrite M in MK. cbn in MK. subst k.
      split; [exact K|]. destruct S1 as (l & _ & L & U). apply (once_iff f _ _ U) in J. destruct J as (b' & c & _ & O & ->).
      injection M as ->. exists c. split; [exact O|reflexivity].
    - intros (L & c & O & ->). split; [|reflexivity]. destruct (says_total QCtx L) as (v & x & l & V & CL & U).
      exists QCtx, v, x. split; [exact L|]. split; [exists l; repeat split; try assumption; apply CL|]. apply (once_iff f _ _ U). exists b, c.
      split; [apply CL; exists c; split; [apply O|apply O]|]. split; [exact O|reflexivity].
  Qed.

  (** Everything reported about one reference, call, rule or node definition is in the result. *)
  Lemma out_about : forall k v x, reported f k -> says f k v x -> incl x out.
  Proof. intros k v x K S1 d J. apply out_says. exists k, v, x. repeat split; assumption. Qed.
End Reported.

(** ** Calls of [collect_all_diagnostics] return *)
Lemma asks_all : forall f ks k c, asks (fall_exec f) (ask_all ks c) k -> In k ks \/ asks (fall_exec f) c k.
Proof.
  intros f ks k c. induction ks as [|q ks IH]; cbn [ask_all]; intros H; [right; exact H|].
  inversion H as [|? ? v ds ? E H'|]; subst; [left; left; reflexivity|]. destruct (IH H') as [X|X]; [left; right; exact X|right; exact X].
Qed.

Lemma follows_collect : forall ks (log : list (event key value diagnostic)),
  follows (ask_all ks (CCollect (fun _ => CRet))) log CRet ->
  exists ds during, log = ESnapshot ds :: during /\ forall e, In e during -> exists q v, e = EAnswer q v.
Proof.
  assert (G : forall ks (log : list (event key value diagnostic)) c, follows (ask_all ks (CCollect (fun _ => CRet))) log c ->
    (c = CRet /\ exists ds during, log = ESnapshot ds :: during /\ forall e, In e during -> exists q v, e = EAnswer q v)
    \/ ((forall e, In e log -> exists q v, e = EAnswer q v) /\ exists ks', c = ask_all ks' (CCollect (fun _ => CRet)))).
  { intros ks log c H. induction H as [|k v log c H IH|ds log c H IH].
    - right. split; [intros e []|]. exists ks. reflexivity.
    - destruct IH as [(X & _)|(A & ks' & X)]; [discriminate X|]. right. split.
      + intros e [<-|J]; [exists k, v; reflexivity|exact (A e J)].
      + destruct ks' as [|q ks']; [discriminate X|]. cbn [ask_all] in X. injection X as _ ->. exists ks'. reflexivity.
    - destruct IH as [(X & _)|(A & ks' & X)]; [discriminate X|]. left. destruct ks' as [|q ks']; [|discriminate X].
      cbn [ask_all] in X. injection X as ->. split; [reflexivity|]. exists ds, log. split; [reflexivity|exact A]. }
  intros ks log H. destruct (G ks log CRet H) as [(_ & X)|(_ & [|q ks'] & X)]; [exact X|discriminate X|discriminate X].
Qed.

Section Returns.
  Variables (f : file) (T : tree).
  Hypothesis WF : wf_file f T.
  Hypothesis CT : char_tree (f_text f) T.
  Hypothesis CO : complete f.
  Notation exec := (fall_exec f).

  Lemma api_alive : forall cs l t, api_clients f cs ->
    In t (st_threads (run_schedule key_eqb key_kind exec l (start cs))) -> t_ctl t <> Dead.
  Proof.
    intros cs l t A J D. destruct (dead_panics key_eqb key_eqb_spec key_kind exec cs l t J D) as (k & W & O).
    destruct (wanted_says f T WF CT CO cs k A W) as (v & ds & E & _). discriminate (outcome_det _ _ _ O _ E).
  Qed.

  Lemma collect_ok : forall c, exists cl, collect_all_diagnostics f c = Ok cl.
  Proof.
    intros c. destruct (collect_keys_ok f T WF) as (ks & E & _). unfold collect_all_diagnostics, collect_client. rewrite E. cbn [bind].
    eexists. reflexivity.
  Qed.

  Lemma collect_asks : forall c cl k, collect_all_diagnostics f c = Ok cl -> asks exec cl k ->
    api_key f k \/ exists ds, asks exec (c ds) k.
  Proof.
    intros c cl k E A. destruct (collect_keys_ok f T WF) as (ks & EK & KS). unfold collect_all_diagnostics, collect_client in E.
    rewrite EK in E. cbn [bind] in E. injection E as <-. destruct (asks_all _ _ _ _ A) as [J|X]; [left; apply KS; exact J|].
    inversion X as [| |? ds ? Y]; subst. right. exists (sort_diags ds). exact Y.
  Qed.

  Lemma collect_exists : exists ds out, collect_returns f ds out.
  Proof.
    destruct (collect_ok (fun _ => CRet)) as (cl & E).
    assert (A : api_clients f [cl]).
    { intros c k [<-|[]] X. destruct (collect_asks _ _ _ E X) as [Y|(ds & Y)]; [exact Y|inversion Y]. }
    pose proof (all_halt key_eqb key_eqb_spec key_kind exec [cl] (fun k _ => exec_outcome f k)) as AC.
    destruct (acc_complete key_eqb key_eqb_spec key_kind exec [cl] _ AC (inv_start key_kind exec [cl])) as (l & F).
    destruct (nth_error (st_threads (run_schedule key_eqb key_kind exec l (start [cl]))) 0) as [t|] eqn:NT.
    2:{ exfalso.
        assert (G : forall l s, length (st_threads s) = 1 -> length (st_threads (run_schedule key_eqb key_kind exec l s)) = 1).
        { clear. intros l. induction l as [|i l IH]; intros s H; [exact H|]. cbn [run_schedule]. destruct (step_at key_eqb key_kind exec i s) as [s'|] eqn:S1; [|exact (IH s H)].
          apply IH. unfold step_at in S1. destruct (nth_error (st_threads s) i); [|discriminate S1]. destruct (tstep key_eqb key_kind exec i (st_shared s) t) as [(sh, t')|]; [|discriminate S1].
          injection S1 as <-. cbn [st_threads]. rewrite set_nth_length. exact H. }
        apply nth_error_None in NT. rewrite G in NT by reflexivity. lia. }
    assert (ND : t_ctl t <> Dead) by (apply (api_alive [cl] l t A); exact (nth_error_In _ _ NT)).
    pose proof (track key_eqb key_kind exec [cl] l 0 cl t eq_refl NT) as TR. destruct (F 0 t NT) as [C|C]; [|contradiction].
    unfold on_track in TR. rewrite C in TR. destruct TR as (_ & FO).
    destruct (collect_keys_ok f T WF) as (ks & EK & KS). unfold collect_all_diagnostics, collect_client in E.
    pose proof E as E'. rewrite EK in E'. cbn [bind] in E'. injection E' as EC.
    assert (FO' : follows (ask_all ks (CCollect (fun _ => CRet))) (t_log t) CRet) by (rewrite EC; exact FO).
    destruct (follows_collect _ _ FO') as (ds & during & LOG & AN).
    exists ds, (sort_diags ds), [cl], l, 0, cl, t, [], during, [], (fun _ => CRet), cl.
    split; [exact A|]. split; [split; [reflexivity|exact NT]|]. split; [rewrite app_nil_r; exact LOG|]. split; [exact AN|].
    split; [constructor|]. split; [exact E|reflexivity].
  Qed.
End Returns.

(** ** Concrete runs: one client asks some questions and then calls [collect_all_diagnostics] *)
Definition lone_log (f : file) (ps : list key) (fuel : nat) : option (list (event key value diagnostic)) :=
  match collect_all_diagnostics f (fun _ => CRet) with
  | Ok cl => option_map t_log (nth_error (st_threads (run_schedule key_eqb key_kind (fall_exec f) (repeat 0 fuel) (start [ask_all ps cl]))) 0)
  | _ => None
  end.
Definition is_answer (e : event key value diagnostic) : bool := match e with EAnswer _ _ => true | ESnapshot _ => false end.
Definition lone_result (f : file) (ps : list key) (fuel : nat) : option (list diagnostic) :=
  match lone_log f ps fuel with
  | Some (ESnapshot ds :: rest) => if forallb is_answer rest then Some ds else None
  | _ => None
  end.
Definition lone_answer (f : file) (q : key) (fuel : nat) : option value :=
  match lone_log f [q] fuel with
  | Some log => match last log (ESnapshot []) with EAnswer q' v => if key_eqb q q' then Some v else None | _ => None end
  | None => None
  end.

Lemma asked_first : forall ps cl (log : list (event key value diagnostic)) c, follows (ask_all ps cl) log c ->
  (exists ps', ps' <> [] /\ c = ask_all ps' cl /\ forallb is_answer log = true) \/ exists during before, log = during ++ before /\ follows (ask_all ps cl) before cl /\ forallb is_answer before = true.
Proof.
  intros ps cl log c H. induction H as [|k v log c H IH|ds log c H IH].
  - destruct ps as [|p ps].
    + right. exists [], []. split; [reflexivity|]. split; [constructor|reflexivity].
    + left. exists (p :: ps). split; [discriminate|]. split; reflexivity.
  - destruct IH as [(ps' & NE & E & A)|(during & before & -> & FO)].
    + destruct ps' as [|q ps']; [contradiction|]. cbn [ask_all] in E. injection E as -> ->. destruct ps' as [|q' ps'].
      * right. exists [], (EAnswer q v :: log). split; [reflexivity|]. split; [exact (fo_answer _ q v log (fun _ => cl) H)|exact A].
      * left. exists (q' :: ps'). split; [discriminate|]. split; [reflexivity|exact A].
    + right. exists (EAnswer k v :: during), before. split; [reflexivity|exact FO].
  - destruct IH as [(ps' & NE & E & A)|(during & before & -> & FO)].
    + destruct ps' as [|q ps']; [contradiction|discriminate E].
    + right. exists (ESnapshot ds :: during), before. split; [reflexivity|exact FO].
Qed.

Lemma lone_returns : forall f T ps fuel ds, wf_file f T -> (forall k, In k ps -> api_key f k) -> lone_result f ps fuel = Some ds ->
  collect_returns f ds (sort_diags ds).
Proof.
  intros f T ps fuel ds WF AP E. unfold lone_result in E. destruct (lone_log f ps fuel) as [[|[q v|ds'] rest]|] eqn:L; try discriminate E.
  destruct (forallb is_answer rest) eqn:FA; [|discriminate E]. injection E as ->. unfold lone_log in L.
  destruct (collect_all_diagnostics f (fun _ => CRet)) as [cl| |] eqn:C; try discriminate L.
  destruct (nth_error (st_threads (run_schedule key_eqb key_kind (fall_exec f) (repeat 0 fuel) (start [ask_all ps cl]))) 0) as [t|] eqn:NT; [|discriminate L].
  cbn [option_map] in L. injection L as LOG.
  pose proof (track key_eqb key_kind (fall_exec f) [ask_all ps cl] (repeat 0 fuel) 0 _ t eq_refl NT) as TR. destruct (track_follows _ _ TR) as (c & FO).
  rewrite LOG in FO. destruct (asked_first _ _ _ _ FO) as [(ps' & _ & _ & X)|(during & before & X & FB & AB)]; [discriminate X|].
  assert (FA' : forall e, In e rest -> exists q v, e = EAnswer q v).
  { intros e J. rewrite forallb_forall in FA. specialize (FA e J). destruct e as [q v|]; [exists q, v; reflexivity|discriminate FA]. }
  destruct during as [|e during].
  - exfalso. cbn [app] in X. rewrite <- X in AB. discriminate AB.
  - cbn [app] in X. injection X as <- ->.
    exists [ask_all ps cl], (repeat 0 fuel), 0, (ask_all ps cl), t, before, during, [], (fun _ => CRet), cl.
    split; [|split; [split; [reflexivity|exact NT]|split; [exact LOG|split; [|split; [exact FB|split; [exact C|reflexivity]]]]]].
    + intros c' k [<-|[]] A. destruct (asks_all _ _ _ _ A) as [J|J]; [exact (AP k J)|].
      destruct (collect_asks f T WF _ _ _ C J) as [Y|(ds0 & Y)]; [exact Y|inversion Y].
    + intros e J. apply FA'. apply in_app_iff. left. exact J.
Qed.

Lemma lone_answers : forall f q fuel v, lone_answer f q fuel = Some v -> answers f q v.
Proof.
  intros f q fuel v E. unfold lone_answer in E. destruct (lone_log f [q] fuel) as [log|] eqn:L; [|discriminate E].
  destruct (last log (ESnapshot [])) as [q' v'|] eqn:LA; [|discriminate E]. destruct (key_eqb q q') eqn:K; [|discriminate E]. injection E as ->.
  apply key_eqb_spec in K. subst q'. unfold lone_log in L. destruct (collect_all_diagnostics f (fun _ => CRet)) as [cl| |]; try discriminate L.
  destruct (nth_error (st_threads (run_schedule key_eqb key_kind (fall_exec f) (repeat 0 fuel) (start [ask_all [q] cl]))) 0) as [t|] eqn:NT; [|discriminate L].
  cbn [option_map] in L. injection L as LOG. exists [ask_all [q] cl], (repeat 0 fuel), 0, (ask_all [q] cl), t. split; [split; [reflexivity|exact NT]|].
  rewrite LOG. destruct log as [|e log]; [discriminate LA|]. rewrite <- LA. clear. revert e. induction log as [|e' log IH]; intros e; [left; reflexivity|].
  right. exact (IH e').
Qed.

Lemma lone_case : forall f T ps fuel out, wf_file f T -> (forall k, In k ps -> api_key f k) ->
  option_map sort_diags (lone_result f ps fuel) = Some out -> exists ds, collect_returns f ds out.
Proof.
  intros f T ps fuel out WF AP E. destruct (lone_result f ps fuel) as [ds|] eqn:L; [|discriminate E]. cbn [option_map] in E. injection E as <-.
  exists ds. exact (lone_returns f T ps fuel ds WF AP L).
Qed.
