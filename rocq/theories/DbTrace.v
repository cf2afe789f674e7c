(** What a thread has observed is what its program asked for, in order; and threads die only of panicking queries. *)
From Coq Require Import List Arith Bool.
From Verif Require Import Base BaseFacts DbModel DbSpec DbProofs.
Import ListNotations.

Section Trace.
Context {K V D : Type}.
Variable K_eqb : K -> K -> bool.
Hypothesis K_eqb_spec : forall a b, K_eqb a b = true <-> a = b.
Variable kind : K -> nat.
Variable exec : K -> prog K V D.
Variable cs : list (client K V D).

Notation tstep := (tstep K_eqb kind exec).
Notation step_at := (step_at K_eqb kind exec).
Notation run_schedule := (run_schedule K_eqb kind exec).

Lemma follows_det : forall c0 log c c' : _, follows (K:=K) (V:=V) (D:=D) c0 log c -> follows c0 log c' -> c = c'.
Proof.
  intros c0 log c c' H. revert c'. induction H as [|k v log c H IH|ds log c H IH]; intros c' H'; inversion H'; subst; [reflexivity| |].
  - match goal with X : follows c0 log (CAsk k _) |- _ => apply IH in X; injection X as <- end. reflexivity.
  - match goal with X : follows c0 log (CCollect _) |- _ => apply IH in X; injection X as <- end. reflexivity.
Qed.

Lemma follows_older : forall c0 l1 l2 c, follows (K:=K) (V:=V) (D:=D) c0 (l1 ++ l2) c -> exists c', follows c0 l2 c' /\ follows c' l1 c.
Proof.
  intros c0 l1 l2. induction l1 as [|e l1 IH]; intros c H.
  - exists c. split; [exact H|constructor].
  - cbn [app] in H. inversion H as [|k v lg c1 H1|ds lg c1 H1]; subst; destruct (IH _ H1) as (c' & A & B); exists c'; (split; [exact A|]); constructor; exact B.
Qed.

Fixpoint waits (c0 : client K V D) (lg : list (event K V D)) (st : list (frame K V D)) (k : K) : Prop :=
  match st with
  | [] => False
  | FQuery k0 _ :: r => waits c0 lg r k0
  | FClient c :: r => r = [] /\ follows c0 lg (CAsk k c)
  end.

Definition on_track (c0 : client K V D) (t : thread K V D) : Prop :=
  match t_ctl t with
  | Client c => t_stack t = [] /\ follows c0 (t_log t) c
  | Collecting c => t_stack t = [] /\ follows c0 (t_log t) (CCollect c)
  | Look k | Looking k | Run k _ | Commit k _ _ | Committing k _ _ | Recording k _ _ | Extending k _ _ | Storing k _ | Answer k _ =>
      waits c0 (t_log t) (t_stack t) k
  | Dead => exists c, follows c0 (t_log t) c
  end.

Lemma waits_log : forall c0 lg st k, waits c0 lg st k -> exists c, follows c0 lg c.
Proof.
  intros c0 lg st. induction st as [|[k0 c|c] r IH]; intros k H; [destruct H|exact (IH _ H)|]. destruct H as (_ & H). eexists. exact H.
Qed.

Lemma track_step : forall c0 i s t s' t', on_track c0 t -> tstep i s t = Some (s', t') -> on_track c0 t'.
Proof.
  intros c0 i s [c st lg] s' t' H ST. unfold on_track in H. cbn [t_ctl t_stack t_log] in H. unfold DbModel.tstep in ST. cbn [t_ctl t_stack t_log] in ST.
  destruct c as [c|c|k|k|k p|k v ds|k v ds|k v ds|k v ds|k v|k v|].
  - destruct H as (-> & H). destruct c as [|k c|c]; [discriminate ST| |].
    + injection ST as <- <-. unfold on_track. cbn [t_ctl t_stack t_log waits]. split; [reflexivity|exact H].
    + destruct (s_dlock s); [discriminate ST|]. injection ST as <- <-. split; [reflexivity|exact H].
  - destruct H as (-> & H). injection ST as <- <-. split; [reflexivity|]. cbn [t_log]. constructor. exact H.
  - destruct (s_lock s (kind k)); [discriminate ST|]. injection ST as <- <-. exact H.
  - destruct (lookup K_eqb k (s_cache s)); injection ST as <- <-; exact H.
  - destruct p as [v ds|k' c|].
    + injection ST as <- <-. exact H.
    + injection ST as <- <-. exact H.
    + injection ST as <- <-. exact (waits_log _ _ _ _ H).
  - destruct (s_lock s (kind k)); [discriminate ST|]. injection ST as <- <-. exact H.
  - destruct (lookup K_eqb k (s_cache s)); injection ST as <- <-; exact H.
  - destruct (s_dlock s); [discriminate ST|]. injection ST as <- <-. exact H.
  - injection ST as <- <-. exact H.
  - injection ST as <- <-. exact H.
  - destruct st as [|[k0 c|c] r]; [discriminate ST| |]; injection ST as <- <-.
    + exact H.
    + destruct H as (-> & H). split; [reflexivity|]. cbn [t_log]. constructor. exact H.
  - discriminate ST.
Qed.

Lemma track_run : forall l s, (forall i c t, nth_error cs i = Some c -> nth_error (st_threads s) i = Some t -> on_track c t) ->
  forall i c t, nth_error cs i = Some c -> nth_error (st_threads (run_schedule l s)) i = Some t -> on_track c t.
Proof.
  intros l. induction l as [|j l IH]; intros s H; [exact H|]. cbn [DbModel.run_schedule].
  destruct (step_at j s) as [s'|] eqn:ST; [|apply IH; exact H]. apply IH. unfold DbModel.step_at in ST.
  destruct (nth_error (st_threads s) j) as [u|] eqn:U; [|discriminate ST]. destruct (tstep j (st_shared s) u) as [(sh, u')|] eqn:TS; [|discriminate ST].
  injection ST as <-. intros i c t C E. cbn [st_threads] in E. destruct (Nat.eq_dec i j) as [->|NE].
  - rewrite nth_error_set_nth_eq in E by (apply nth_error_Some; rewrite U; discriminate). injection E as <-.
    exact (track_step _ _ _ _ _ _ (H j c u C U) TS).
  - rewrite nth_error_set_nth_neq in E by congruence. exact (H i c t C E).
Qed.

Lemma track : forall l i c t, nth_error cs i = Some c -> nth_error (st_threads (run_schedule l (start cs))) i = Some t -> on_track c t.
Proof.
  intros l. apply track_run. intros i c t C E. cbn [start st_threads] in E. rewrite nth_error_map, C in E. injection E as <-. split; [reflexivity|constructor].
Qed.

Lemma track_follows : forall c t, on_track c t -> exists c', follows c (t_log t) c'.
Proof.
  intros c [x st lg] H. unfold on_track in H. cbn [t_ctl t_stack t_log] in *.
  destruct x; try (exact (waits_log _ _ _ _ H)); try (destruct H as (_ & H); eexists; exact H). exact H.
Qed.

(** A dead thread has met a query that panics. *)
Lemma dead_run : forall l s, inv kind exec cs s -> 
  (forall t, In t (st_threads s) -> t_ctl t = Dead -> exists k, wanted exec cs k /\ outcome exec (exec k) None) ->
  forall t, In t (st_threads (run_schedule l s)) -> t_ctl t = Dead -> exists k, wanted exec cs k /\ outcome exec (exec k) None.
Proof.
  intros l. induction l as [|j l IH]; intros s I H; [exact H|]. cbn [DbModel.run_schedule].
  destruct (step_at j s) as [s'|] eqn:ST; [|apply IH; assumption]. apply IH; [eapply inv_step; eassumption|]. unfold DbModel.step_at in ST.
  destruct (nth_error (st_threads s) j) as [u|] eqn:U; [|discriminate ST]. destruct (tstep j (st_shared s) u) as [(sh, u')|] eqn:TS; [|discriminate ST].
  injection ST as <-. intros t J E. cbn [st_threads] in J. apply In_nth_error in J. destruct J as (i & J). destruct (Nat.eq_dec i j) as [->|NE].
  2:{ rewrite nth_error_set_nth_neq in J by congruence. exact (H t (nth_error_In _ _ J) E). }
  rewrite nth_error_set_nth_eq in J by (apply nth_error_Some; rewrite U; discriminate). injection J as <-.
  destruct (i_threads _ _ _ _ I j u U) as (O & _). unfold DbModel.tstep in TS.
  destruct (t_ctl u) as [c|c|k|k|k p|k v ds|k v ds|k v ds|k v ds|k v|k v|] eqn:C.
  5:{ destruct p as [v ds|k' c|]; injection TS as <- <-; try discriminate E. destruct O as (W & OC & _). exists k. split; [exact (wait_wanted _ _ _ _ _ W)|].
      apply OC. constructor. }
  all: repeat match type of TS with
    | match ?x with _ => _ end = _ => destruct x; try discriminate TS
    end; try discriminate TS; try (injection TS as <- <-; discriminate E).
Qed.

Lemma dead_panics : forall l t, In t (st_threads (run_schedule l (start cs))) -> t_ctl t = Dead ->
  exists k, wanted exec cs k /\ outcome exec (exec k) None.
Proof.
  intros l. apply dead_run; [apply inv_start|]. intros t J E. cbn [start st_threads] in J. apply in_map_iff in J. destruct J as (c & <- & _). discriminate E.
Qed.
End Trace.
