(** Proofs about the analysis database. *)
From Coq Require Import List Arith Bool Lia.
From Verif Require Import Base BaseFacts DbModel DbSpec.
Import ListNotations.

Section DbProofs.
Context {K V D : Type}.
Variable K_eqb : K -> K -> bool.
Hypothesis K_eqb_spec : forall a b, K_eqb a b = true <-> a = b.
Variable kind : K -> nat.
Variable exec : K -> prog K V D.
Variable cs : list (client K V D).

Notation outcome := (outcome exec).
Notation evaluates := (evaluates exec).
Notation needs := (needs exec).
Notation asks := (asks exec).
Notation wanted := (wanted exec cs).
Notation lookup := (lookup K_eqb).
Notation tstep := (tstep K_eqb kind exec).
Notation step_at := (step_at K_eqb kind exec).
Notation run_schedule := (run_schedule K_eqb kind exec).

Lemma outcome_det : forall p o, outcome p o -> forall o', outcome p o' -> o = o'.
Proof.
  intros p o H. induction H as [v ds| |k c v ds o H1 IH1 H2 IH2|k c H1 IH1]; intros o' H'; inversion H'; subst; clear H'.
  - reflexivity.
  - reflexivity.
  - match goal with X : outcome (exec k) (Some _) |- _ => pose proof (IH1 _ X) as E; injection E as <- <- end. apply IH2. assumption.
  - match goal with X : outcome (exec k) None |- _ => pose proof (IH1 _ X) as E; discriminate E end.
  - match goal with X : outcome (exec k) (Some _) |- _ => pose proof (IH1 _ X) as E; discriminate E end.
  - reflexivity.
Qed.

Lemma evaluates_det : forall k v ds v' ds', evaluates k v ds -> evaluates k v' ds' -> v = v' /\ ds = ds'.
Proof. intros k v ds v' ds' A B. pose proof (outcome_det _ _ A _ B) as E. injection E as <- <-. split; reflexivity. Qed.

Lemma needs_trans : forall p k k', needs p k -> needs (exec k) k' -> needs p k'.
Proof.
  intros p k k' H. induction H as [k c|k c k1 H IH|k c v ds k1 E H IH]; intros N.
  - apply nd_sub. exact N.
  - apply nd_sub. apply IH. exact N.
  - eapply nd_next; [exact E|]. apply IH. exact N.
Qed.

Lemma wanted_needs : forall k k', wanted k -> needs (exec k) k' -> wanted k'.
Proof.
  intros k k' (c & k0 & I & A & [->|N]) H; exists c, k0; split; [exact I|split; [exact A|right]| exact I|split; [exact A|right]].
  - exact H.
  - exact (needs_trans _ _ _ N H).
Qed.

Lemma lookup_some : forall k (l : list (K * V)) v, lookup k l = Some v -> In (k, v) l.
Proof.
  intros k l. induction l as [|(k', w) r IH]; intros v H; [discriminate H|]. cbn [DbModel.lookup] in H.
  destruct (K_eqb k k') eqn:E.
  - apply K_eqb_spec in E. subst k'. injection H as ->. left. reflexivity.
  - right. apply IH. exact H.
Qed.

Lemma lookup_none : forall k (l : list (K * V)), lookup k l = None -> forall v, ~ In (k, v) l.
Proof.
  intros k l. induction l as [|(k', w) r IH]; intros H v I; [exact I|]. cbn [DbModel.lookup] in H.
  destruct (K_eqb k k') eqn:E; [discriminate H|]. destruct I as [I|I].
  - injection I as -> ->. rewrite (proj2 (K_eqb_spec k k) eq_refl) in E. discriminate E.
  - exact (IH H v I).
Qed.

Definition cached (C : list (K * V)) (k : K) : Prop := exists v, In (k, v) C.

(** Invariant of one thread, monotone in the cache *)
Fixpoint wait_ok (C : list (K * V)) (st : list (frame K V D)) (k : K) : Prop :=
  match st with
  | [] => False
  | FQuery k0 c :: r =>
      (forall v ds, evaluates k v ds -> forall o, outcome (c v) o -> outcome (exec k0) o) /\
      (forall v ds k', evaluates k v ds -> needs (exec k0) k' ->
         cached C k' \/ k' = k \/ needs (exec k) k' \/ needs (c v) k') /\
      (forall v ds k', evaluates k v ds -> needs (c v) k' -> needs (exec k0) k') /\
      needs (exec k0) k /\ wait_ok C r k0
  | FClient c :: r =>
      r = [] /\ exists c0, In c0 cs /\ asks c0 k /\
        forall v ds k', evaluates k v ds -> asks (c v) k' -> asks c0 k'
  end.

Definition done_body C k := forall k', needs (exec k) k' -> cached C k'.

Definition ctl_ok (C : list (K * V)) (c : ctl K V D) (st : list (frame K V D)) : Prop :=
  match c with
  | Client c => st = [] /\ exists c0, In c0 cs /\ forall k, asks c k -> asks c0 k
  | Collecting c => st = [] /\ exists c0, In c0 cs /\ forall ds k, asks (c ds) k -> asks c0 k
  | Look k | Looking k => wait_ok C st k
  | Run k p =>
      wait_ok C st k /\ (forall o, outcome p o -> outcome (exec k) o) /\
      (forall k', needs p k' -> needs (exec k) k') /\
      (forall k', needs (exec k) k' -> cached C k' \/ needs p k')
  | Commit k v ds | Committing k v ds | Recording k v ds | Extending k v ds =>
      wait_ok C st k /\ evaluates k v ds /\ done_body C k
  | Storing k v => wait_ok C st k /\ (exists ds, evaluates k v ds) /\ done_body C k
  | Answer k v => wait_ok C st k /\ In (k, v) C
  | Dead => st = []
  end.

Definition snap_ok (ds : list D) (before : list (event K V D)) : Prop :=
  exists order, NoDup order /\ diagnostics_of exec order ds /\
    (forall k, In k order -> wanted k) /\
    (forall k v, In (EAnswer k v) before ->
       In k order /\ forall k', needs (exec k) k' -> In k' order).

Definition log_ok (C : list (K * V)) (l : list (event K V D)) : Prop :=
  (forall k v, In (EAnswer k v) l -> In (k, v) C) /\
  (forall l1 ds l2, l = l1 ++ ESnapshot ds :: l2 -> snap_ok ds l2).

Definition t_ok C (t : thread K V D) : Prop := ctl_ok C (t_ctl t) (t_stack t) /\ log_ok C (t_log t).

Lemma cached_mono : forall C C' k, incl C C' -> cached C k -> cached C' k.
Proof. intros C C' k I (v & H). exists v. apply I. exact H. Qed.

Lemma wait_mono : forall C C' st k, incl C C' -> wait_ok C st k -> wait_ok C' st k.
Proof.
  intros C C' st. induction st as [|[k0 c|c] r IH]; intros k I H; [exact H| |exact H].
  destruct H as (A & B & A' & N & W). split; [exact A|]. split; [|split; [exact A'|split; [exact N|apply IH; assumption]]].
  intros v ds k' E N'. destruct (B v ds k' E N') as [X|X]; [left; eapply cached_mono; eassumption|right; exact X].
Qed.

Lemma done_mono : forall C C' k, incl C C' -> done_body C k -> done_body C' k.
Proof. intros C C' k I H k' N. eapply cached_mono; [exact I|]. apply H. exact N. Qed.

Lemma t_ok_mono : forall C C' t, incl C C' -> t_ok C t -> t_ok C' t.
Proof.
  intros C C' [c st lg] I (H & L & S'). split.
  - clear L S'. cbn [t_ctl t_stack] in *. destruct c; cbn [ctl_ok] in *; try exact H; try (eapply wait_mono; eassumption).
    + destruct H as (W & A & B & E). split; [eapply wait_mono; eassumption|]. split; [exact A|]. split; [exact B|].
      intros k' N. destruct (E k' N) as [X|X]; [left; eapply cached_mono; eassumption|right; exact X].
    + destruct H as (W & A & B). split; [eapply wait_mono; eassumption|]. split; [exact A|eapply done_mono; eassumption].
    + destruct H as (W & A & B). split; [eapply wait_mono; eassumption|]. split; [exact A|eapply done_mono; eassumption].
    + destruct H as (W & A & B). split; [eapply wait_mono; eassumption|]. split; [exact A|eapply done_mono; eassumption].
    + destruct H as (W & A & B). split; [eapply wait_mono; eassumption|]. split; [exact A|eapply done_mono; eassumption].
    + destruct H as (W & A & B). split; [eapply wait_mono; eassumption|]. split; [exact A|eapply done_mono; eassumption].
    + destruct H as (W & A). split; [eapply wait_mono; eassumption|]. apply I. exact A.
  - split; [|exact S']. intros k v J. apply I. apply L. exact J.
Qed.

Lemma wait_wanted : forall C st k, wait_ok C st k -> wanted k.
Proof.
  intros C st. induction st as [|[k0 c|c] r IH]; intros k H; [destruct H| |].
  - destruct H as (_ & _ & _ & N & W). exact (wanted_needs _ _ (IH _ W) N).
  - destruct H as (_ & c0 & I & A & _). exists c0, k. split; [exact I|split; [exact A|left; reflexivity]].
Qed.

(** Which mutexes a thread holds *)
Definition holds (t : thread K V D) : option nat :=
  match t_ctl t with
  | Looking k | Committing k _ _ | Recording k _ _ | Extending k _ _ | Storing k _ => Some (kind k)
  | _ => None
  end.

Definition holds_d (t : thread K V D) : bool :=
  match t_ctl t with Collecting _ | Extending _ _ _ => true | _ => false end.

(** The entry was seen vacant *)
Definition fresh (t : thread K V D) : option K :=
  match t_ctl t with Recording k _ _ | Extending k _ _ | Storing k _ => Some k | _ => None end.

(** The diagnostics are recorded, the result is not yet stored *)
Definition pending (t : thread K V D) : option K :=
  match t_ctl t with Storing k _ => Some k | _ => None end.

Record inv (s : state K V D) : Prop := {
  i_nodup : NoDup (map fst (s_cache (st_shared s)));
  i_cache : forall k v, In (k, v) (s_cache (st_shared s)) ->
      (exists ds, evaluates k v ds) /\ wanted k /\ done_body (s_cache (st_shared s)) k;
  i_threads : forall i t, nth_error (st_threads s) i = Some t -> t_ok (s_cache (st_shared s)) t;
  i_lock : forall q i, s_lock (st_shared s) q = Some i <->
      exists t, nth_error (st_threads s) i = Some t /\ holds t = Some q;
  i_dlock : forall i, s_dlock (st_shared s) = Some i <->
      exists t, nth_error (st_threads s) i = Some t /\ holds_d t = true;
  i_fresh : forall i t k, nth_error (st_threads s) i = Some t -> fresh t = Some k ->
      ~ cached (s_cache (st_shared s)) k;
  i_order : exists order, NoDup order /\ diagnostics_of exec order (s_diags (st_shared s)) /\
      forall k, In k order <-> cached (s_cache (st_shared s)) k \/
        exists i t, nth_error (st_threads s) i = Some t /\ pending t = Some k
}.

Lemma fresh_holds : forall t k, fresh t = Some k -> holds t = Some (kind k).
Proof. intros [c st lg] k. unfold fresh, holds. cbn [t_ctl]. destruct c; intros H; try discriminate H; injection H as ->; reflexivity. Qed.

Lemma pending_fresh : forall t k, pending t = Some k -> fresh t = Some k.
Proof. intros [c st lg] k. unfold pending, fresh. cbn [t_ctl]. destruct c; intros H; try discriminate H; exact H. Qed.

Section Step.
  Variables (s : state K V D) (i : nat) (t : thread K V D).
  Hypothesis I : inv s.
  Hypothesis T : nth_error (st_threads s) i = Some t.

  Let ths' (t' : thread K V D) := set_nth i t' (st_threads s).

  Lemma nth_same : forall t', nth_error (ths' t') i = Some t'.
  Proof. intros t'. apply nth_error_set_nth_eq. apply nth_error_Some. congruence. Qed.

  Lemma nth_other : forall t' j, j <> i -> nth_error (ths' t') j = nth_error (st_threads s) j.
  Proof. intros t' j N. apply nth_error_set_nth_neq. auto. Qed.

  Lemma ex_upd : forall t' (P : thread K V D -> Prop) j,
    (exists u, nth_error (ths' t') j = Some u /\ P u) <->
    (j = i /\ P t') \/ (j <> i /\ exists u, nth_error (st_threads s) j = Some u /\ P u).
  Proof.
    intros t' P j. destruct (Nat.eq_dec j i) as [->|N].
    - rewrite nth_same. split.
      + intros (u & E & H). injection E as <-. left. split; [reflexivity|exact H].
      + intros [(_ & H)|(N & _)]; [|congruence]. exists t'. split; [reflexivity|exact H].
    - rewrite nth_other by exact N. split.
      + intros H. right. split; assumption.
      + intros [(E & _)|(_ & H)]; [congruence|exact H].
  Qed.

  Lemma lock_keep : forall t', holds t' = holds t -> forall q j,
    s_lock (st_shared s) q = Some j <-> exists u, nth_error (ths' t') j = Some u /\ holds u = Some q.
  Proof.
    intros t' H q j. rewrite (i_lock s I q j), (ex_upd t' (fun u => holds u = Some q) j). destruct (Nat.eq_dec j i) as [->|N].
    - split.
      + intros (u & E & G). rewrite T in E. injection E as <-. left. split; [reflexivity|congruence].
      + intros [(_ & G)|(N & _)]; [|congruence]. exists t. split; [exact T|congruence].
    - split; [intros G; right; split; assumption|]. intros [(E & _)|(_ & G)]; [congruence|exact G].
  Qed.

  Lemma lock_take : forall t' k, s_lock (st_shared s) (kind k) = None -> holds t = None -> holds t' = Some (kind k) ->
    forall q j, set_lock (kind k) (Some i) (s_lock (st_shared s)) q = Some j <-> exists u, nth_error (ths' t') j = Some u /\ holds u = Some q.
  Proof.
    intros t' k F H H' q j. rewrite (ex_upd t' (fun u => holds u = Some q) j). unfold set_lock. destruct (q =? kind k) eqn:Q.
    - apply Nat.eqb_eq in Q. subst q. split.
      + intros E. injection E as ->. left. split; [reflexivity|exact H'].
      + intros [(-> & _)|(N & u & E & G)]; [reflexivity|]. exfalso. pose proof (proj2 (i_lock s I (kind k) j) (ex_intro _ u (conj E G))) as X. congruence.
    - apply Nat.eqb_neq in Q. rewrite (i_lock s I q j). split.
      + intros (u & E & G). right. split; [|exists u; split; assumption]. intros ->. rewrite T in E. injection E as <-. congruence.
      + intros [(_ & G)|(_ & G)]; [congruence|exact G].
  Qed.

  Lemma lock_drop : forall t' k, holds t = Some (kind k) -> holds t' = None ->
    forall q j, set_lock (kind k) None (s_lock (st_shared s)) q = Some j <-> exists u, nth_error (ths' t') j = Some u /\ holds u = Some q.
  Proof.
    intros t' k H H' q j. rewrite (ex_upd t' (fun u => holds u = Some q) j). unfold set_lock.
    assert (L : s_lock (st_shared s) (kind k) = Some i) by (apply (i_lock s I); exists t; split; assumption).
    destruct (q =? kind k) eqn:Q.
    - apply Nat.eqb_eq in Q. subst q. split; [discriminate|].
      intros [(_ & G)|(N & u & E & G)]; [congruence|]. exfalso. pose proof (proj2 (i_lock s I (kind k) j) (ex_intro _ u (conj E G))) as X. congruence.
    - apply Nat.eqb_neq in Q. rewrite (i_lock s I q j). split.
      + intros (u & E & G). right. split; [|exists u; split; assumption]. intros ->. rewrite T in E. injection E as <-. congruence.
      + intros [(_ & G)|(_ & G)]; [congruence|exact G].
  Qed.

  Lemma dlock_keep : forall t', holds_d t' = holds_d t -> forall j,
    s_dlock (st_shared s) = Some j <-> exists u, nth_error (ths' t') j = Some u /\ holds_d u = true.
  Proof.
    intros t' H j. rewrite (i_dlock s I j), (ex_upd t' (fun u => holds_d u = true) j). destruct (Nat.eq_dec j i) as [->|N].
    - split.
      + intros (u & E & G). rewrite T in E. injection E as <-. left. split; [reflexivity|congruence].
      + intros [(_ & G)|(N & _)]; [|congruence]. exists t. split; [exact T|congruence].
    - split; [intros G; right; split; assumption|]. intros [(E & _)|(_ & G)]; [congruence|exact G].
  Qed.

  Lemma dlock_take : forall t', s_dlock (st_shared s) = None -> holds_d t' = true -> forall j,
    Some i = Some j <-> exists u, nth_error (ths' t') j = Some u /\ holds_d u = true.
  Proof.
    intros t' F H j. rewrite (ex_upd t' (fun u => holds_d u = true) j). split.
    - intros E. injection E as <-. left. split; [reflexivity|exact H].
    - intros [(-> & _)|(N & u & E & G)]; [reflexivity|]. exfalso. pose proof (proj2 (i_dlock s I j) (ex_intro _ u (conj E G))) as X. congruence.
  Qed.

  Lemma dlock_drop : forall t', holds_d t = true -> holds_d t' = false -> forall j,
    None = Some j <-> exists u, nth_error (ths' t') j = Some u /\ holds_d u = true.
  Proof.
    intros t' H H' j. rewrite (ex_upd t' (fun u => holds_d u = true) j). split; [discriminate|].
    intros [(_ & G)|(N & u & E & G)]; [congruence|]. exfalso.
    pose proof (proj2 (i_dlock s I j) (ex_intro _ u (conj E G))) as X.
    pose proof (proj2 (i_dlock s I i) (ex_intro _ t (conj T H))) as Y. congruence.
  Qed.

  Lemma fresh_keep : forall t' C', incl C' (s_cache (st_shared s)) ->
    (forall k, fresh t' = Some k -> ~ cached (s_cache (st_shared s)) k) ->
    forall j u k, nth_error (ths' t') j = Some u -> fresh u = Some k -> ~ cached C' k.
  Proof.
    intros t' C' N H j u k E F G. apply (cached_mono _ _ _ N) in G. destruct (Nat.eq_dec j i) as [->|NE].
    - rewrite nth_same in E. injection E as <-. exact (H k F G).
    - rewrite nth_other in E by exact NE. exact (i_fresh s I j u k E F G).
  Qed.

  (** no other thread is about to store what we saw vacant *)
  Lemma fresh_alone : forall k j u k', fresh t = Some k -> nth_error (st_threads s) j = Some u -> fresh u = Some k' -> k = k' -> j = i.
  Proof.
    intros k j u k' F E G ->. apply fresh_holds in F. apply fresh_holds in G.
    pose proof (proj2 (i_lock s I _ i) (ex_intro _ t (conj T F))) as X.
    pose proof (proj2 (i_lock s I _ j) (ex_intro _ u (conj E G))) as Y. congruence.
  Qed.

  Lemma pend_keep : forall t', pending t' = pending t -> forall k,
    (exists j u, nth_error (ths' t') j = Some u /\ pending u = Some k) <->
    (exists j u, nth_error (st_threads s) j = Some u /\ pending u = Some k).
  Proof.
    intros t' H k. split; intros (j & G).
    - apply (ex_upd t' (fun u => pending u = Some k) j) in G. destruct G as [(-> & G)|(_ & G)]; [|exists j; exact G].
      exists i, t. split; [exact T|congruence].
    - exists j. apply (ex_upd t' (fun u => pending u = Some k) j). destruct (Nat.eq_dec j i) as [->|N]; [left|right; split; assumption].
      destruct G as (u & E & G). rewrite T in E. injection E as <-. split; [reflexivity|congruence].
  Qed.

  Lemma order_keep : forall t', pending t' = pending t ->
    exists order, NoDup order /\ diagnostics_of exec order (s_diags (st_shared s)) /\
      forall k, In k order <-> cached (s_cache (st_shared s)) k \/
        exists j u, nth_error (ths' t') j = Some u /\ pending u = Some k.
  Proof.
    intros t' H. destruct (i_order s I) as (order & N & G & E). exists order. split; [exact N|split; [exact G|]].
    intros k. rewrite (E k), (pend_keep t' H k). reflexivity.
  Qed.

  Lemma threads_keep : forall C t', incl (s_cache (st_shared s)) C -> t_ok C t' ->
    forall j u, nth_error (ths' t') j = Some u -> t_ok C u.
  Proof.
    intros C t' N H j u E. destruct (Nat.eq_dec j i) as [->|NE].
    - rewrite nth_same in E. injection E as <-. exact H.
    - rewrite nth_other in E by exact NE. eapply t_ok_mono; [exact N|]. eapply (i_threads s I). exact E.
  Qed.

  (** A step that leaves the cache, the diagnostics and the locks' contents consistent *)
  Lemma inv_plain : forall t' lk dl,
    t_ok (s_cache (st_shared s)) t' ->
    (forall q j, lk q = Some j <-> exists u, nth_error (ths' t') j = Some u /\ holds u = Some q) ->
    (forall j, dl = Some j <-> exists u, nth_error (ths' t') j = Some u /\ holds_d u = true) ->
    (forall k, fresh t' = Some k -> ~ cached (s_cache (st_shared s)) k) ->
    pending t' = pending t ->
    inv (State (Shared (s_cache (st_shared s)) lk (s_diags (st_shared s)) dl) (ths' t')).
  Proof.
    intros t' lk dl H L DL F P. constructor; cbn [st_shared st_threads s_cache s_lock s_diags s_dlock].
    - exact (i_nodup s I).
    - exact (i_cache s I).
    - apply threads_keep; [apply incl_refl|exact H].
    - exact L.
    - exact DL.
    - apply fresh_keep; [apply incl_refl|exact F].
    - apply order_keep. exact P.
  Qed.

End Step.

Lemma shared_eta : forall s : shared K V D, Shared (s_cache s) (s_lock s) (s_diags s) (s_dlock s) = s.
Proof. intros [a b c d]. reflexivity. Qed.

Lemma no_fresh : forall C (t : thread K V D), fresh t = None -> forall k, fresh t = Some k -> ~ cached C k.
Proof. intros C t H k G. congruence. Qed.

Lemma inv_plain_same : forall s i t t', inv s -> nth_error (st_threads s) i = Some t ->
  t_ok (s_cache (st_shared s)) t' -> holds t' = holds t -> holds_d t' = holds_d t -> fresh t' = None -> pending t' = pending t ->
  inv (State (st_shared s) (set_nth i t' (st_threads s))).
Proof.
  intros s i t t' I T H A B F P. rewrite <- (shared_eta (st_shared s)).
  apply (inv_plain s i t I T); [exact H|apply (lock_keep s i t I T); exact A|apply (dlock_keep s i t I T); exact B|apply no_fresh; exact F|exact P].
Qed.

Lemma diags_app : forall order ds k v d, diagnostics_of exec order ds -> evaluates k v d -> diagnostics_of exec (order ++ [k]) (ds ++ d).
Proof.
  intros order ds k v d (dss & F & ->) E. exists (dss ++ [d]). split.
  - apply Forall2_app; [exact F|]. constructor; [exists v; exact E|constructor].
  - rewrite concat_app. cbn [concat]. rewrite app_nil_r. reflexivity.
Qed.

Lemma nodup_snoc : forall (l : list K) k, NoDup l -> ~ In k l -> NoDup (l ++ [k]).
Proof.
  intros l k N H. induction N as [|x l NI N IH]; cbn [app].
  - constructor; [intros []|constructor].
  - constructor.
    + intros J. apply in_app_or in J. destruct J as [J|[J|[]]]; [exact (NI J)|]. apply H. left. congruence.
    + apply IH. intros J. apply H. right. exact J.
Qed.

Lemma inv_extend : forall s i t k v ds, inv s -> nth_error (st_threads s) i = Some t -> t_ctl t = Extending k v ds ->
  inv (State (Shared (s_cache (st_shared s)) (s_lock (st_shared s)) (s_diags (st_shared s) ++ ds) None)
             (set_nth i (Thread (Storing k v) (t_stack t) (t_log t)) (st_threads s))).
Proof.
  intros s i t k v ds I T E. set (t' := Thread (Storing k v) (t_stack t) (t_log t)).
  destruct (i_threads s I i t T) as (O & L). rewrite E in O. destruct O as (W & EV & DB).
  assert (F : fresh t = Some k) by (unfold fresh; rewrite E; reflexivity).
  assert (NC := i_fresh s I i t k T F).
  constructor; cbn [st_shared st_threads s_cache s_lock s_diags s_dlock].
  - exact (i_nodup s I).
  - exact (i_cache s I).
  - apply (threads_keep s i t I T); [apply incl_refl|]. split; [|exact L]. split; [exact W|]. split; [exists ds; exact EV|exact DB].
  - apply (lock_keep s i t I T). unfold holds. rewrite E. reflexivity.
  - apply (dlock_drop s i t I T); unfold holds_d; [rewrite E|]; reflexivity.
  - apply (fresh_keep s i t I T); [apply incl_refl|]. intros k' X. cbn in X. injection X as <-. exact NC.
  - destruct (i_order s I) as (order & N & G & Q).
    assert (NP : forall j u, nth_error (st_threads s) j = Some u -> pending u = Some k -> False).
    { intros j u J P. pose proof (fresh_alone s i t I T k j u k F J (pending_fresh _ _ P) eq_refl) as ->.
      rewrite T in J. injection J as <-. unfold pending in P. rewrite E in P. discriminate P. }
    exists (order ++ [k]). split; [|split].
    + apply nodup_snoc; [exact N|]. intros J. apply Q in J. destruct J as [J|(j & u & J & P)]; [exact (NC J)|exact (NP j u J P)].
    + eapply diags_app; eassumption.
    + intros k'. rewrite in_app_iff, (Q k'). split.
      * intros [[X|(j & X)]|[<-|[]]].
        -- left. exact X.
        -- right. exists j. apply (ex_upd s i t T t' (fun u => pending u = Some k') j). right. split; [|exact X].
           intros ->. destruct X as (u & J & P). rewrite T in J. injection J as <-. unfold pending in P. rewrite E in P. discriminate P.
        -- right. exists i. apply (ex_upd s i t T t' (fun u => pending u = Some k) i). left. split; reflexivity.
      * intros [X|(j & X)]; [left; left; exact X|]. apply (ex_upd s i t T t' (fun u => pending u = Some k') j) in X.
        destruct X as [(-> & P)|(_ & X)]; [|left; right; exists j; exact X]. right. left. unfold pending in P. cbn in P. congruence.
Qed.

Lemma inv_store : forall s i t k v, inv s -> nth_error (st_threads s) i = Some t -> t_ctl t = Storing k v ->
  inv (State (Shared ((k, v) :: s_cache (st_shared s)) (set_lock (kind k) None (s_lock (st_shared s))) (s_diags (st_shared s)) (s_dlock (st_shared s)))
             (set_nth i (Thread (Answer k v) (t_stack t) (t_log t)) (st_threads s))).
Proof.
  intros s i t k v I T E. set (t' := Thread (Answer k v) (t_stack t) (t_log t)).
  destruct (i_threads s I i t T) as (O & L). rewrite E in O. destruct O as (W & (ds & EV) & DB).
  assert (F : fresh t = Some k) by (unfold fresh; rewrite E; reflexivity).
  assert (NC := i_fresh s I i t k T F).
  assert (IN : incl (s_cache (st_shared s)) ((k, v) :: s_cache (st_shared s))) by (apply incl_tl, incl_refl).
  constructor; cbn [st_shared st_threads s_cache s_lock s_diags s_dlock].
  - cbn [map fst]. constructor; [|exact (i_nodup s I)]. intros J. apply in_map_iff in J. destruct J as ((k', w) & Q & J).
    cbn [fst] in Q. subst k'. apply NC. exists w. exact J.
  - intros k' w [J|J].
    + injection J as <- <-. split; [exists ds; exact EV|]. split; [eapply wait_wanted; exact W|]. eapply done_mono; [exact IN|exact DB].
    + destruct (i_cache s I k' w J) as (A & B & DN). split; [exact A|split; [exact B|]]. eapply done_mono; [exact IN|exact DN].
  - apply (threads_keep s i t I T); [exact IN|].
    split; [|split; [intros k' w J; apply IN; apply L; exact J|apply L]]. split; [eapply wait_mono; [exact IN|exact W]|left; reflexivity].
  - apply (lock_drop s i t I T); unfold holds; [rewrite E|]; reflexivity.
  - apply (dlock_keep s i t I T). unfold holds_d. rewrite E. reflexivity.
  - intros j u k' J G (w & H). destruct (Nat.eq_dec j i) as [->|NE].
    + rewrite (nth_same s i t T) in J. injection J as <-. discriminate G.
    + rewrite (nth_other s i) in J by exact NE. destruct H as [H|H].
      * injection H as <- <-. apply NE. exact (fresh_alone s i t I T k j u k F J G eq_refl).
      * apply (i_fresh s I j u k' J G). exists w. exact H.
  - destruct (i_order s I) as (order & N & G & Q). exists order. split; [exact N|split; [exact G|]].
    intros k'. rewrite (Q k'). split.
    + intros [(w & X)|(j & X)]; [left; exists w; right; exact X|].
      destruct (Nat.eq_dec j i) as [->|NE].
      * destruct X as (u & J & P). rewrite T in J. injection J as <-. unfold pending in P. rewrite E in P. injection P as <-.
        left. exists v. left. reflexivity.
      * right. exists j. apply (ex_upd s i t T t' (fun u => pending u = Some k') j). right. split; assumption.
    + intros [(w & [X|X])|(j & X)].
      * injection X as <- <-. right. exists i, t. split; [exact T|]. unfold pending. rewrite E. reflexivity.
      * left. exists w. exact X.
      * apply (ex_upd s i t T t' (fun u => pending u = Some k') j) in X. destruct X as [(_ & P)|(_ & X)]; [discriminate P|]. right. exists j. exact X.
Qed.

Ltac hc E := first [reflexivity | unfold holds; cbn [t_ctl]; rewrite E; reflexivity | unfold holds_d; cbn [t_ctl]; rewrite E; reflexivity
  | unfold pending; cbn [t_ctl]; rewrite E; reflexivity].

Lemma inv_step : forall s i s', inv s -> step_at i s = Some s' -> inv s'.
Proof.
  intros s i s' I S'. unfold DbModel.step_at in S'. destruct (nth_error (st_threads s) i) as [t|] eqn:T; [|discriminate S'].
  destruct (tstep i (st_shared s) t) as [(sh, t')|] eqn:ST; [|discriminate S']. injection S' as <-.
  destruct (i_threads s I i t T) as (O & L). unfold DbModel.tstep in ST.
  destruct (t_ctl t) as [c|c|k|k|k p|k v ds|k v ds|k v ds|k v ds|k v|k v|] eqn:E; cbn [ctl_ok] in O.
  - (* Client *) destruct O as (SE & c0 & IC & A). destruct c as [|k c|c].
    + discriminate ST.
    + injection ST as <- <-. apply (inv_plain_same s i t _ I T); try hc E. split; [|exact L]. cbn [t_ctl t_stack ctl_ok wait_ok].
      split; [exact SE|]. exists c0. split; [exact IC|]. split; [apply A; apply as_here|].
      intros v ds k' EV N. apply A. eapply as_next; eassumption.
    + destruct (s_dlock (st_shared s)) as [j|] eqn:DL; [discriminate ST|]. injection ST as <- <-.
      apply (inv_plain s i t I T); [|apply (lock_keep s i t I T); hc E|apply (dlock_take s i t I T); [exact DL|reflexivity]|apply no_fresh; reflexivity|hc E].
      split; [|exact L]. cbn [t_ctl t_stack ctl_ok]. split; [exact SE|]. exists c0. split; [exact IC|].
      intros ds k N. apply A. eapply as_collect. exact N.
  - (* Collecting *) destruct O as (SE & c0 & IC & A). injection ST as <- <-.
    apply (inv_plain s i t I T); [|apply (lock_keep s i t I T); hc E|apply (dlock_drop s i t I T); hc E|apply no_fresh; reflexivity|hc E].
    split.
    + cbn [t_ctl t_stack ctl_ok]. split; [exact SE|]. exists c0. split; [exact IC|]. intros k N. apply (A (s_diags (st_shared s))). exact N.
    + destruct L as (L1 & L2). split; cbn [t_log].
      * intros k v [J|J]; [discriminate J|]. apply L1. exact J.
      * intros l1 ds l2 Q. destruct l1 as [|e l1].
        -- injection Q as <- <-. destruct (i_order s I) as (order & N & G & OD). exists order. split; [exact N|]. split; [exact G|]. split.
           ++ intros k J. apply OD in J. destruct J as [(v & J)|(j & u & J & P)].
              ** apply (i_cache s I k v J).
              ** destruct (i_threads s I j u J) as (OK & _). unfold pending in P. destruct (t_ctl u) eqn:EU; try discriminate P. injection P as ->.
                 destruct OK as (W & _). exact (wait_wanted _ _ _ W).
           ++ intros k v J. apply L1 in J. split; [apply OD; left; exists v; exact J|]. intros k' NK. apply OD. left.
              destruct (i_cache s I k v J) as (_ & _ & DN). apply DN. exact NK.
        -- injection Q as _ Q. exact (L2 l1 ds l2 Q).
  - (* Look *) destruct (s_lock (st_shared s) (kind k)) as [j|] eqn:LK; [discriminate ST|]. injection ST as <- <-.
    apply (inv_plain s i t I T); [|apply (lock_take s i t I T); [exact LK|hc E|reflexivity]|apply (dlock_keep s i t I T); hc E|apply no_fresh; reflexivity|hc E].
    split; [exact O|exact L].
  - (* Looking *) destruct (lookup k (s_cache (st_shared s))) as [v|] eqn:LU; injection ST as <- <-.
    + apply (inv_plain s i t I T); [|apply (lock_drop s i t I T); hc E|apply (dlock_keep s i t I T); hc E|apply no_fresh; reflexivity|hc E].
      split; [|exact L]. split; [exact O|]. apply lookup_some. exact LU.
    + apply (inv_plain s i t I T); [|apply (lock_drop s i t I T); hc E|apply (dlock_keep s i t I T); hc E|apply no_fresh; reflexivity|hc E].
      split; [|exact L]. split; [exact O|]. split; [intros o H; exact H|]. split; [intros k' H; exact H|]. intros k' H. right. exact H.
  - (* Run *) destruct O as (W & OC & NP & ND). destruct p as [v ds|k' c|].
    + injection ST as <- <-. apply (inv_plain_same s i t _ I T); try hc E. split; [|exact L]. split; [exact W|].
      split; [apply OC; constructor|]. intros k' N. destruct (ND k' N) as [X|X]; [exact X|inversion X].
    + injection ST as <- <-. apply (inv_plain_same s i t _ I T); try hc E. split; [|exact L]. cbn [t_ctl t_stack ctl_ok wait_ok].
      split; [intros v ds EV o H; apply OC; eapply oc_ask; eassumption|].
      split.
      { intros v ds k'' EV N. destruct (ND k'' N) as [X|X]; [left; exact X|right]. inversion X; subst.
        - left. reflexivity.
        - right. left. assumption.
        - match goal with EV' : DbSpec.evaluates exec k' _ _ |- _ => destruct (evaluates_det _ _ _ _ _ EV EV') as (<- & <-) end. right. right. assumption. }
      split; [intros v ds k'' EV N; apply NP; eapply nd_next; eassumption|]. split; [apply NP; apply nd_here|exact W].
    + injection ST as <- <-. apply (inv_plain_same s i t _ I T); try hc E. split; [reflexivity|exact L].
  - (* Commit *) destruct (s_lock (st_shared s) (kind k)) as [j|] eqn:LK; [discriminate ST|]. injection ST as <- <-.
    apply (inv_plain s i t I T); [|apply (lock_take s i t I T); [exact LK|hc E|reflexivity]|apply (dlock_keep s i t I T); hc E|apply no_fresh; reflexivity|hc E].
    split; [exact O|exact L].
  - (* Committing *) destruct O as (W & EV & DB). destruct (lookup k (s_cache (st_shared s))) as [w|] eqn:LU; injection ST as <- <-.
    + apply (inv_plain s i t I T); [|apply (lock_drop s i t I T); hc E|apply (dlock_keep s i t I T); hc E|apply no_fresh; reflexivity|hc E].
      split; [|exact L]. split; [exact W|]. apply lookup_some. exact LU.
    + rewrite <- (shared_eta (st_shared s)). apply (inv_plain s i t I T); [|apply (lock_keep s i t I T); hc E|apply (dlock_keep s i t I T); hc E| |hc E].
      * split; [|exact L]. split; [exact W|split; assumption].
      * intros k' F. unfold fresh in F. cbn [t_ctl] in F. injection F as <-. intros (w & J). exact (lookup_none _ _ LU w J).
  - (* Recording *) destruct (s_dlock (st_shared s)) as [j|] eqn:DL; [discriminate ST|]. injection ST as <- <-.
    apply (inv_plain s i t I T); [|apply (lock_keep s i t I T); hc E|apply (dlock_take s i t I T); [exact DL|reflexivity]| |hc E].
    + split; [exact O|exact L].
    + intros k' F. unfold fresh in F. cbn [t_ctl] in F. injection F as <-. apply (i_fresh s I i t k T). unfold fresh. rewrite E. reflexivity.
  - (* Extending *) injection ST as <- <-. eapply inv_extend; eassumption.
  - (* Storing *) injection ST as <- <-. apply inv_store; assumption.
  - (* Answer *) destruct O as (W & J). destruct (t_stack t) as [|[k0 c|c] r] eqn:SK; [discriminate ST| |].
    + injection ST as <- <-. apply (inv_plain_same s i t _ I T); try hc E. split; [|exact L].
      destruct (i_cache s I k v J) as ((ds & EV) & _ & DN). destruct W as (A & B & A' & N & W). cbn [t_ctl t_stack ctl_ok].
      split; [exact W|]. split; [intros o H; exact (A v ds EV o H)|]. split; [intros k' H; exact (A' v ds k' EV H)|].
      intros k' H. destruct (B v ds k' EV H) as [X|[->|[X|X]]]; [left; exact X|left; exists v; exact J|left; apply DN; exact X|right; exact X].
    + injection ST as <- <-. apply (inv_plain_same s i t _ I T); try hc E.
      destruct (i_cache s I k v J) as ((ds & EV) & _ & DN). destruct W as (-> & c0 & IC & A & B). split; cbn [t_ctl t_stack ctl_ok t_log].
      * split; [reflexivity|]. exists c0. split; [exact IC|]. intros k' N. exact (B v ds k' EV N).
      * destruct L as (L1 & L2). split.
        -- intros k' v' [Q|Q]; [injection Q as <- <-; exact J|apply L1; exact Q].
        -- intros l1 ds' l2 Q. destruct l1 as [|e l1]; [discriminate Q|]. injection Q as _ Q. exact (L2 l1 ds' l2 Q).
  - discriminate ST.
Qed.

Lemma inv_start : inv (start cs).
Proof.
  assert (TH : forall i t, nth_error (st_threads (start cs)) i = Some t -> exists c, In c cs /\ t = Thread (Client c) [] []).
  { intros i t E. cbn [start st_threads] in E. rewrite nth_error_map in E. destruct (nth_error cs i) as [c|] eqn:C; [|discriminate E].
    injection E as <-. exists c. split; [exact (nth_error_In _ _ C)|reflexivity]. }
  constructor.
  - constructor.
  - intros k v [].
  - intros i t E. destruct (TH i t E) as (c & I & ->). split.
    + split; [reflexivity|]. exists c. split; [exact I|]. intros k A. exact A.
    + split; [intros k v []|]. intros [|x l1] ds l2 Q; discriminate Q.
  - intros q i. split; [discriminate|]. intros (t & E & H). destruct (TH i t E) as (c & I & ->). discriminate H.
  - intros i. split; [discriminate|]. intros (t & E & H). destruct (TH i t E) as (c & I & ->). discriminate H.
  - intros i t k E F. destruct (TH i t E) as (c & I & ->). discriminate F.
  - exists []. split; [constructor|]. split; [exists []; split; [constructor|reflexivity]|].
    intros k. split; [intros []|]. intros [(v & [])|(i & t & E & P)]. destruct (TH i t E) as (c & I & ->). discriminate P.
Qed.

Lemma inv_run : forall l s, inv s -> inv (run_schedule l s).
Proof.
  intros l. induction l as [|i r IH]; intros s I; [exact I|]. cbn [DbModel.run_schedule]. destruct (step_at i s) as [s'|] eqn:E.
  - apply IH. eapply inv_step; eassumption.
  - apply IH. exact I.
Qed.

(** Stored results stay. *)
Lemma cache_step : forall s i s', step_at i s = Some s' -> incl (s_cache (st_shared s)) (s_cache (st_shared s')).
Proof.
  intros s i s' E. unfold DbModel.step_at in E. destruct (nth_error (st_threads s) i) as [t|]; [|discriminate E].
  destruct (tstep i (st_shared s) t) as [(sh, t')|] eqn:ST; [|discriminate E]. injection E as <-. cbn [st_shared].
  unfold DbModel.tstep in ST. destruct (t_ctl t) as [c|c|k|k|k p|k v ds|k v ds|k v ds|k v ds|k v|k v|]; 
    repeat match goal with
    | H : Some _ = Some _ |- _ => injection H as <- <-
    | H : None = Some _ |- _ => discriminate H
    | H : context [match ?x with _ => _ end] |- _ => destruct x
    end; cbn [s_cache]; solve [apply incl_refl | apply incl_tl, incl_refl].
Qed.

Lemma cache_run : forall l s, incl (s_cache (st_shared s)) (s_cache (st_shared (run_schedule l s))).
Proof.
  intros l. induction l as [|i r IH]; intros s; [apply incl_refl|]. cbn [DbModel.run_schedule]. destruct (step_at i s) as [s'|] eqn:E; [|apply IH].
  eapply incl_tran; [eapply cache_step; exact E|apply IH].
Qed.

(** ** No deadlock *)
Lemma can_move : forall s i t, inv s -> nth_error (st_threads s) i = Some t -> ~ finished t ->
  exists j s', step_at j s = Some s'.
Proof.
  intros s i t I T NF.
  assert (MV : forall j u x, nth_error (st_threads s) j = Some u -> tstep j (st_shared s) u = Some x -> exists j s', step_at j s = Some s').
  { intros j u (sh, u') J ST. exists j. unfold DbModel.step_at. rewrite J, ST. eexists. reflexivity. }
  assert (DM : forall j, s_dlock (st_shared s) = Some j -> exists j s', step_at j s = Some s').
  { intros j DL. apply (i_dlock s I) in DL. destruct DL as (u & J & H). unfold holds_d in H.
    destruct (t_ctl u) eqn:E; try discriminate H; (eapply MV; [exact J|]; unfold DbModel.tstep; rewrite E; reflexivity). }
  assert (LM : forall q j, s_lock (st_shared s) q = Some j -> exists j s', step_at j s = Some s').
  { intros q j LK. apply (i_lock s I) in LK. destruct LK as (u & J & H). unfold holds in H. destruct (t_ctl u) eqn:E; try discriminate H.
    - destruct (lookup k (s_cache (st_shared s))) eqn:LU; (eapply MV; [exact J|]; unfold DbModel.tstep; rewrite E, LU; reflexivity).
    - destruct (lookup k (s_cache (st_shared s))) eqn:LU; (eapply MV; [exact J|]; unfold DbModel.tstep; rewrite E, LU; reflexivity).
    - destruct (s_dlock (st_shared s)) as [m|] eqn:DL; [apply (DM m eq_refl)|]. eapply MV; [exact J|]; unfold DbModel.tstep; rewrite E, DL; reflexivity.
    - eapply MV; [exact J|]; unfold DbModel.tstep; rewrite E; reflexivity.
    - eapply MV; [exact J|]; unfold DbModel.tstep; rewrite E; reflexivity. }
  destruct (i_threads s I i t T) as (O & _).
  destruct (t_ctl t) as [c|c|k|k|k p|k v ds|k v ds|k v ds|k v ds|k v|k v|] eqn:E; cbn [ctl_ok] in O.
  - destruct c as [|k c|c].
    + exfalso. apply NF. left. exact E.
    + eapply MV; [exact T|]; unfold DbModel.tstep; rewrite E; reflexivity.
    + destruct (s_dlock (st_shared s)) as [m|] eqn:DL; [apply (DM m eq_refl)|]. eapply MV; [exact T|]; unfold DbModel.tstep; rewrite E, DL; reflexivity.
  - eapply MV; [exact T|]; unfold DbModel.tstep; rewrite E; reflexivity.
  - destruct (s_lock (st_shared s) (kind k)) as [m|] eqn:LK; [apply (LM _ m LK)|]. eapply MV; [exact T|]; unfold DbModel.tstep; rewrite E, LK; reflexivity.
  - destruct (lookup k (s_cache (st_shared s))) eqn:LU; (eapply MV; [exact T|]; unfold DbModel.tstep; rewrite E, LU; reflexivity).
  - destruct p; (eapply MV; [exact T|]; unfold DbModel.tstep; rewrite E; reflexivity).
  - destruct (s_lock (st_shared s) (kind k)) as [m|] eqn:LK; [apply (LM _ m LK)|]. eapply MV; [exact T|]; unfold DbModel.tstep; rewrite E, LK; reflexivity.
  - destruct (lookup k (s_cache (st_shared s))) eqn:LU; (eapply MV; [exact T|]; unfold DbModel.tstep; rewrite E, LU; reflexivity).
  - destruct (s_dlock (st_shared s)) as [m|] eqn:DL; [apply (DM m eq_refl)|]. eapply MV; [exact T|]; unfold DbModel.tstep; rewrite E, DL; reflexivity.
  - eapply MV; [exact T|]; unfold DbModel.tstep; rewrite E; reflexivity.
  - eapply MV; [exact T|]; unfold DbModel.tstep; rewrite E; reflexivity.
  - destruct O as (W & _). destruct (t_stack t) as [|[k0 c|c] r] eqn:SK; [destruct W| |];
      (eapply MV; [exact T|]; unfold DbModel.tstep; rewrite E, SK; reflexivity).
  - exfalso. apply NF. right. exact E.
Qed.

(** ** Termination *)
Definition right_cache (C : list (K * V)) : Prop := forall k v, In (k, v) C -> exists ds, evaluates k v ds.

Definition tl (t' t : thread K V D) : Prop :=
  exists i sh sh', right_cache (s_cache sh) /\ tstep i sh t = Some (sh', t').

Ltac one_step :=
  constructor; intros ? (? & ? & ? & ? & ?);
  match goal with H : DbModel.tstep _ _ _ _ _ _ = Some _ |- _ => unfold DbModel.tstep in H; cbn [t_ctl t_stack t_log] in H end;
  repeat match goal with
  | H : Some _ = Some _ |- _ => injection H as <- <-
  | H : None = Some _ |- _ => discriminate H
  | H : context [match ?x with _ => _ end] |- _ => let Q := fresh "Q" in destruct x eqn:Q
  end.

Lemma acc_run : forall p o, outcome p o -> forall k st lg, outcome (exec k) o ->
  (forall v ds, evaluates k v ds -> Acc tl (Thread (Answer k v) st lg)) ->
  Acc tl (Thread (Run k p) st lg).
Proof.
  intros p o H. induction H as [v ds| |k' c v ds o H1 IH1 H2 IH2|k' c H1 IH1]; intros k st lg E A.
  - do 2 one_step. one_step.
    + match goal with R : right_cache _, Q : DbModel.lookup _ _ _ = Some _ |- _ => destruct (R _ _ (lookup_some _ _ _ Q)) as (ds' & EV) end.
      exact (A _ _ EV).
    + do 3 one_step. exact (A v ds E).
  - one_step. one_step.
  - one_step.
    assert (AN : forall v' ds', evaluates k' v' ds' -> Acc tl (Thread (Answer k' v') (FQuery k c :: st) lg)).
    { intros v' ds' EV. destruct (evaluates_det _ _ _ _ _ EV H1) as (-> & ->). one_step. apply IH2; [exact E|exact A]. }
    do 2 one_step.
    + match goal with R : right_cache _, Q : DbModel.lookup _ _ _ = Some _ |- _ => destruct (R _ _ (lookup_some _ _ _ Q)) as (ds' & EV) end.
      exact (AN _ _ EV).
    + apply IH1; [exact H1|exact AN].
  - one_step.
    assert (AN : forall v' ds', evaluates k' v' ds' -> Acc tl (Thread (Answer k' v') (FQuery k c :: st) lg)).
    { intros v' ds' EV. pose proof (outcome_det _ _ EV _ H1) as X. discriminate X. }
    do 2 one_step.
    + match goal with R : right_cache _, Q : DbModel.lookup _ _ _ = Some _ |- _ => destruct (R _ _ (lookup_some _ _ _ Q)) as (ds' & EV) end.
      exact (AN _ _ EV).
    + apply IH1; [exact H1|exact AN].
Qed.

Lemma acc_client : forall c lg, (forall k, asks c k -> exists o, outcome (exec k) o) -> Acc tl (Thread (Client c) [] lg).
Proof.
  intros c. induction c as [|k c IH|c IH]; intros lg H.
  - one_step.
  - one_step.
    assert (AN : forall v' ds', evaluates k v' ds' -> Acc tl (Thread (Answer k v') [FClient c] lg)).
    { intros v' ds' EV. one_step. apply IH. intros k' AS. apply H. eapply as_next; eassumption. }
    do 2 one_step.
    + match goal with R : right_cache _, Q : DbModel.lookup _ _ _ = Some _ |- _ => destruct (R _ _ (lookup_some _ _ _ Q)) as (ds' & EV) end.
      exact (AN _ _ EV).
    + destruct (H k (as_here _ _ _)) as (o & OC). eapply acc_run; [exact OC|exact OC|exact AN].
  - do 2 one_step. apply IH. intros k AS. apply H. eapply as_collect. exact AS.
Qed.

Definition listrel {A} (R : A -> A -> Prop) (l' l : list A) : Prop :=
  exists i a a', nth_error l i = Some a /\ R a' a /\ l' = set_nth i a' l.

Lemma listrel_acc : forall A (R : A -> A -> Prop) l, Forall (Acc R) l -> Acc (listrel R) l.
Proof.
  intros A R l F. induction F as [|a l H F IH].
  - constructor. intros l' (i & a & a' & E & _). destruct i; discriminate E.
  - clear F. revert l IH. induction H as [a _ IHa]. intros l H. induction H as [l Hl IHl].
    constructor. intros l' (i & b & b' & E & RB & ->). destruct i as [|i]; cbn [set_nth].
    + injection E as <-. apply IHa; [exact RB|]. constructor. exact Hl.
    + apply IHl. exists i, b, b'. split; [exact E|split; [exact RB|reflexivity]].
Qed.

Definition moves (s' s : state K V D) : Prop := exists i, step_at i s = Some s'.

Lemma acc_state : forall ths, Acc (listrel tl) ths -> forall sh, inv (State sh ths) -> Acc moves (State sh ths).
Proof.
  intros ths H. induction H as [ths _ IH]. intros sh I. constructor. intros [sh' ths'] (i & E).
  pose proof (inv_step _ _ _ I E) as I'. apply IH; [|exact I']. unfold DbModel.step_at in E. cbn [st_threads st_shared] in E.
  destruct (nth_error ths i) as [t|] eqn:T; [|discriminate E]. destruct (tstep i sh t) as [(sh1, t')|] eqn:ST; [|discriminate E].
  injection E as <- <-. exists i, t, t'. split; [exact T|]. split; [|reflexivity]. exists i, sh, sh1. split; [|exact ST].
  intros k v J. apply (i_cache _ I k v J).
Qed.

Lemma all_halt : (forall k, wanted k -> exists o, outcome (exec k) o) -> Acc moves (start cs).
Proof.
  intros H. apply acc_state; [|exact inv_start]. apply listrel_acc. apply Forall_forall. intros t J. apply in_map_iff in J.
  destruct J as (c & <- & IC). apply acc_client. intros k A. apply H. exists c, k. split; [exact IC|]. split; [exact A|left; reflexivity].
Qed.

Lemma acc_chain : forall s, Acc moves s -> forall f : nat -> state K V D, f 0 = s -> (forall n, moves (f (S n)) (f n)) -> False.
Proof.
  intros s H. induction H as [s _ IH]. intros f E M. apply (IH (f 1)) with (f := fun n => f (S n)).
  - rewrite <- E. apply M.
  - reflexivity.
  - intros n. apply M.
Qed.

Lemma acc_complete : forall s, Acc moves s -> inv s ->
  exists l, forall i t, nth_error (st_threads (run_schedule l s)) i = Some t -> finished t.
Proof.
  intros s H. induction H as [s _ IH]. intros I.
  assert (DEC : (forall t, In t (st_threads s) -> finished t) \/ exists t, In t (st_threads s) /\ ~ finished t).
  { clear. induction (st_threads s) as [|t r IH].
    - left. intros t [].
    - assert (F : finished t \/ ~ finished t).
      { unfold finished. destruct (t_ctl t) as [[|k c|c]| | | | | | | | | | |]; first [left; left; reflexivity|left; right; reflexivity|right; intros [X|X]; discriminate X]. }
      destruct F as [F|F]; [|right; exists t; split; [left; reflexivity|exact F]].
      destruct IH as [IH|(u & J & NF)]; [left|right; exists u; split; [right; exact J|exact NF]].
      intros u [<-|J]; [exact F|exact (IH u J)]. }
  destruct DEC as [D'|(t & J & NF)].
  - exists []. intros i t E. apply D'. exact (nth_error_In _ _ E).
  - apply In_nth_error in J. destruct J as (i & E). destruct (can_move s i t I E NF) as (j & s' & ST).
    destruct (IH s' (ex_intro _ j ST) (inv_step _ _ _ I ST)) as (l & F). exists (j :: l). cbn [DbModel.run_schedule]. rewrite ST. exact F.
Qed.

End DbProofs.
