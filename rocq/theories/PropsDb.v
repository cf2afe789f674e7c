(** C35: the analysis database under any interleaving of any number of threads. *)
From Coq Require Import List Arith Bool.
From Verif Require Import Base DbModel DbSpec DbProofs.
Import ListNotations.

(** In every reachable state each key is stored at most once, with its value, and a stored result is never
    changed or dropped later. *)
Theorem C35_stored_once :
  forall (K V D : Type) (K_eqb : K -> K -> bool) (kind : K -> nat) (exec : K -> prog K V D)
    (cs : list (client K V D)) (l l' : list nat),
  (forall a b, K_eqb a b = true <-> a = b) ->
  let cache s := s_cache (st_shared (run_schedule K_eqb kind exec s (start cs))) in
  NoDup (map fst (cache l)) /\
  (forall k v, In (k, v) (cache l) -> exists ds, evaluates exec k v ds) /\
  (forall k v, In (k, v) (cache l) -> In (k, v) (cache (l ++ l'))).
Proof.
  intros K V D K_eqb kind exec cs l l' EQ cache. pose proof (inv_run K_eqb EQ kind exec cs l _ (inv_start kind exec cs)) as I.
  split; [exact (i_nodup _ _ _ _ I)|]. split; [intros k v J; apply (i_cache _ _ _ _ I k v J)|].
  intros k v J. unfold cache in *.
  assert (RA : forall a b s, run_schedule K_eqb kind exec (a ++ b) s = run_schedule K_eqb kind exec b (run_schedule K_eqb kind exec a s)).
  { intros a b. induction a as [|i a IH]; intros s; [reflexivity|]. cbn [app run_schedule]. destruct (step_at K_eqb kind exec i s); apply IH. }
  rewrite RA. exact (cache_run K_eqb kind exec l' _ _ J).
Qed.
Print Assumptions C35_stored_once.

(** Whatever is answered to any thread at any time is the query's value; so all threads see equal results. *)
Theorem C35_equal_results :
  forall (K V D : Type) (K_eqb : K -> K -> bool) (kind : K -> nat) (exec : K -> prog K V D)
    (cs : list (client K V D)) (l : list nat) (t t' : thread K V D) k v v',
  (forall a b, K_eqb a b = true <-> a = b) ->
  let threads := st_threads (run_schedule K_eqb kind exec l (start cs)) in
  In t threads -> In t' threads -> In (EAnswer k v) (t_log t) -> In (EAnswer k v') (t_log t') ->
  v = v' /\ exists ds, evaluates exec k v ds.
Proof.
  intros K V D K_eqb kind exec cs l t t' k v v' EQ threads J J' H H'.
  pose proof (inv_run K_eqb EQ kind exec cs l _ (inv_start kind exec cs)) as I.
  apply In_nth_error in J. destruct J as (i & J). apply In_nth_error in J'. destruct J' as (i' & J').
  destruct (i_threads _ _ _ _ I i t J) as (_ & L & _). destruct (i_threads _ _ _ _ I i' t' J') as (_ & L' & _).
  destruct (i_cache _ _ _ _ I k v (L k v H)) as ((ds & E) & _). destruct (i_cache _ _ _ _ I k v' (L' k v' H')) as ((ds' & E') & _).
  split; [exact (proj1 (evaluates_det _ _ _ _ _ _ E E'))|exists ds; exact E].
Qed.
Print Assumptions C35_equal_results.

(** When all threads have finished, the recorded diagnostics are those of a list of distinct keys, each key's
    diagnostics once: exactly the stored keys, among them every answered key and all it depends on, and none
    that nobody asked for. *)
Theorem C35_diagnostics_once :
  forall (K V D : Type) (K_eqb : K -> K -> bool) (kind : K -> nat) (exec : K -> prog K V D)
    (cs : list (client K V D)) (l : list nat),
  (forall a b, K_eqb a b = true <-> a = b) ->
  let s := run_schedule K_eqb kind exec l (start cs) in
  (forall t, In t (st_threads s) -> finished t) ->
  exists order, NoDup order /\ diagnostics_of exec order (s_diags (st_shared s)) /\
    (forall k, In k order <-> exists v, In (k, v) (s_cache (st_shared s))) /\
    (forall k, In k order -> wanted exec cs k) /\
    (forall t k v, In t (st_threads s) -> In (EAnswer k v) (t_log t) ->
       In k order /\ forall k', needs exec (exec k) k' -> In k' order).
Proof.
  intros K V D K_eqb kind exec cs l EQ s F. pose proof (inv_run K_eqb EQ kind exec cs l _ (inv_start kind exec cs)) as I. fold s in I.
  destruct (i_order _ _ _ _ I) as (order & N & G & O).
  assert (O' : forall k, In k order <-> exists v, In (k, v) (s_cache (st_shared s))).
  { intros k. rewrite (O k). split; [|intros X; left; exact X]. intros [X|(i & t & T & P)]; [exact X|].
    destruct (F t (nth_error_In _ _ T)) as [E|E]; unfold pending in P; rewrite E in P; discriminate P. }
  exists order. split; [exact N|]. split; [exact G|]. split; [exact O'|]. split.
  - intros k J. apply O' in J. destruct J as (v & J). apply (i_cache _ _ _ _ I k v J).
  - intros t k v J A. apply In_nth_error in J. destruct J as (i & J). destruct (i_threads _ _ _ _ I i t J) as (_ & L & _).
    apply L in A. split; [apply O'; exists v; exact A|]. intros k' NK. apply O'.
    destruct (i_cache _ _ _ _ I k v A) as (_ & _ & DN). exact (DN k' NK).
Qed.
Print Assumptions C35_diagnostics_once.

(** The same at any time a thread copies the list while others are still working: what it gets are the
    diagnostics of distinct keys, each once, and nothing is missing that belongs to a query answered to this
    thread before. *)
Theorem C35_snapshot :
  forall (K V D : Type) (K_eqb : K -> K -> bool) (kind : K -> nat) (exec : K -> prog K V D)
    (cs : list (client K V D)) (l : list nat) (t : thread K V D) newer ds older,
  (forall a b, K_eqb a b = true <-> a = b) ->
  In t (st_threads (run_schedule K_eqb kind exec l (start cs))) ->
  t_log t = newer ++ ESnapshot ds :: older ->
  exists order, NoDup order /\ diagnostics_of exec order ds /\
    (forall k, In k order -> wanted exec cs k) /\
    (forall k v, In (EAnswer k v) older -> In k order /\ forall k', needs exec (exec k) k' -> In k' order).
Proof.
  intros K V D K_eqb kind exec cs l t newer ds older EQ J E.
  pose proof (inv_run K_eqb EQ kind exec cs l _ (inv_start kind exec cs)) as I.
  apply In_nth_error in J. destruct J as (i & J). destruct (i_threads _ _ _ _ I i t J) as (_ & _ & S'). exact (S' _ _ _ E).
Qed.
Print Assumptions C35_snapshot.

(** No deadlock: as long as some thread is not finished, some thread can move. *)
Theorem C35_no_deadlock :
  forall (K V D : Type) (K_eqb : K -> K -> bool) (kind : K -> nat) (exec : K -> prog K V D)
    (cs : list (client K V D)) (l : list nat) (t : thread K V D),
  (forall a b, K_eqb a b = true <-> a = b) ->
  let s := run_schedule K_eqb kind exec l (start cs) in
  In t (st_threads s) -> ~ finished t -> exists i s', step_at K_eqb kind exec i s = Some s'.
Proof.
  intros K V D K_eqb kind exec cs l t EQ s J NF. apply In_nth_error in J. destruct J as (i & J).
  exact (can_move K_eqb kind exec cs s i t (inv_run K_eqb EQ kind exec cs l _ (inv_start kind exec cs)) J NF).
Qed.
Print Assumptions C35_no_deadlock.

(** If the queries asked for have an outcome at all (they do not call each other in a circle), no schedule goes
    on for ever, and the threads can be run to the end. *)
Theorem C35_terminates :
  forall (K V D : Type) (K_eqb : K -> K -> bool) (kind : K -> nat) (exec : K -> prog K V D)
    (cs : list (client K V D)),
  (forall a b, K_eqb a b = true <-> a = b) ->
  (forall k, wanted exec cs k -> exists o, outcome exec (exec k) o) ->
  (~ exists f : nat -> state K V D, f 0 = start cs /\ forall n, exists i, step_at K_eqb kind exec i (f n) = Some (f (S n))) /\
  (exists l, forall t, In t (st_threads (run_schedule K_eqb kind exec l (start cs))) -> finished t).
Proof.
  intros K V D K_eqb kind exec cs EQ H. pose proof (all_halt K_eqb EQ kind exec cs H) as A. split.
  - intros (f & E & M). exact (acc_chain _ _ _ _ A f E M).
  - destruct (acc_complete K_eqb EQ kind exec cs _ A (inv_start kind exec cs)) as (l & F). exists l.
    intros t J. apply In_nth_error in J. destruct J as (i & J). exact (F i t J).
Qed.
Print Assumptions C35_terminates.

(** ** A concrete case: query 0 has value 7 and reports 100; query 1 asks query 0, adds 1 and reports 101; query 2
    asks queries 1 and 0; query 3 panics.  Keys 0 and 1 share a mutex, 2 and 3 have their own. *)
Definition demo_exec (k : nat) : prog nat nat nat :=
  match k with
  | 0 => Ret 7 [100]
  | 1 => Ask 0 (fun v => Ret (S v) [101])
  | 2 => Ask 1 (fun v => Ask 0 (fun w => Ret (v + w) [102; 103]))
  | _ => Fail
  end.
Definition demo_kind (k : nat) : nat := match k with 0 | 1 => 0 | 2 => 1 | _ => 2 end.
Definition demo_clients : list (client nat nat nat) :=
  [CAsk 1 (fun _ => CCollect (fun _ => CAsk 2 (fun _ => CRet))); CAsk 2 (fun _ => CAsk 3 (fun _ => CRet)); CAsk 1 (fun _ => CRet)].

(** The threads take turns. *)
Definition demo_schedule : list nat := concat (repeat [0; 1; 2] 60).

(** Two threads start computing query 1 before either stores it; it is stored and reported once, thread 1 dies
    in query 3 and the others finish. *)
Example C35_demo :
  let s := run_schedule Nat.eqb demo_kind demo_exec demo_schedule (start demo_clients) in
  s_cache (st_shared s) = [(2, 15); (1, 8); (0, 7)] /\ s_diags (st_shared s) = [100; 101; 102; 103] /\
  map (fun t => t_log t) (st_threads s) =
    [[EAnswer 2 15; ESnapshot [100; 101]; EAnswer 1 8]; [EAnswer 2 15]; [EAnswer 1 8]] /\
  map (fun t => match t_ctl t with Dead => true | _ => false end) (st_threads s) = [false; true; false] /\
  let s' := run_schedule Nat.eqb demo_kind demo_exec (concat (repeat [0; 1; 2] 9)) (start demo_clients) in
  map (fun t => match t_ctl t with Run 1 _ | Commit 1 _ _ | Committing 1 _ _ => true | _ => existsb (fun x => match x with FQuery 1 _ => true | _ => false end) (t_stack t) end)
    (st_threads s') = [true; true; true].
Proof. vm_compute. repeat split. Qed.

Example C35_demo_finished :
  (forall t, In t (st_threads (run_schedule Nat.eqb demo_kind demo_exec demo_schedule (start demo_clients))) -> finished t) /\
  (forall a b, Nat.eqb a b = true <-> a = b) /\
  (forall k, wanted demo_exec demo_clients k -> exists o, outcome demo_exec (demo_exec k) o).
Proof.
  split; [|split; [apply Nat.eqb_eq|]].
  - intros t J. apply In_nth_error in J. destruct J as (i & J). revert J.
    change (nth_error _ i) with (nth_error (st_threads (run_schedule Nat.eqb demo_kind demo_exec demo_schedule (start demo_clients))) i).
    vm_compute. destruct i as [|[|[|i]]]; intros J; try (destruct i; discriminate J); injection J as <-; [left|right|left]; reflexivity.
  - intros k _.
    assert (H0 : outcome demo_exec (demo_exec 0) (Some (7, [100]))) by constructor.
    assert (H1 : outcome demo_exec (demo_exec 1) (Some (8, [101]))) by (eapply oc_ask; [exact H0|constructor]).
    destruct k as [|[|[|k]]].
    + eexists. exact H0.
    + eexists. exact H1.
    + eexists. eapply oc_ask; [exact H1|]. eapply oc_ask; [exact H0|constructor].
    + exists None. constructor.
Qed.
