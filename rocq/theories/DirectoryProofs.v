(** Proofs about the test of a directory. *)
From Coq Require Import List Arith Bool Lia.
From Verif Require Import Base BaseFacts TextModel LexModel ConvertModel DumpModel ScanSpec HarnessModel HarnessSpec HarnessProofs DirectoryModel DirectorySpec.
Import ListNotations.

(** ** Names *)
Lemma last_dot_spec : forall name, match last_dot name with Some (a, b) => name = a ++ 46 :: b /\ ~ In 46 b | None => ~ In 46 name end.
Proof.
  induction name as [|x r IH]; cbn [last_dot]; [intros []|]. destruct (last_dot r) as [(a & b)|].
  - destruct IH as (-> & N). split; [reflexivity|exact N].
  - destruct (x =? 46) eqn:E; [apply Nat.eqb_eq in E; subst x; split; [reflexivity|exact IH]|]. apply Nat.eqb_neq in E. intros [I|I]; [congruence|exact (IH I)].
Qed.

Lemma last_dot_is : forall a b, ~ In 46 b -> last_dot (a ++ 46 :: b) = Some (a, b).
Proof.
  intros a b N. induction a as [|x a IH].
  - cbn [app last_dot]. pose proof (last_dot_spec b) as S. destruct (last_dot b) as [(u & v)|]; [destruct S as (-> & _); destruct N; apply in_or_app; right; left; reflexivity|]. reflexivity.
  - cbn [app last_dot]. rewrite IH. reflexivity.
Qed.

Lemma cut_name : forall stem ext, stem <> [] -> ~ In 46 ext -> stem_and_extension (stem ++ 46 :: ext) = (stem, Some ext).
Proof. intros stem ext NE N. unfold stem_and_extension. rewrite last_dot_is by exact N. destruct stem; [congruence|reflexivity]. Qed.

Definition is_source (path : bytes) : bool := bytes_eqb (match extension path with Some e => e | None => [] end) s_rs.

Lemma source_is : forall path, is_source path = true <-> exists stem, stem <> [] /\ path = source_name stem.
Proof.
  intros path. unfold is_source, extension. split.
  - intros E. unfold stem_and_extension in E. pose proof (last_dot_spec path) as S. destruct (last_dot path) as [(a & b)|]; [|discriminate E]. destruct a as [|x a]; [discriminate E|]. cbn [snd] in E. apply bytes_eqb_spec in E. subst b.
    exists (x :: a). split; [discriminate|exact (proj1 S)].
  - intros (stem & NE & ->). unfold source_name. rewrite (cut_name stem [114; 115] NE); [reflexivity|]. intros [X|[X|[]]]; discriminate X.
Qed.

Lemma record_is : forall stem, stem <> [] -> with_extension (source_name stem) s_txt = record_name stem.
Proof. intros stem NE. unfold with_extension, file_stem, source_name. rewrite (cut_name stem [114; 115] NE); [reflexivity|]. intros [X|[X|[]]]; discriminate X. Qed.

Lemma app_end : forall (a b c d : bytes), a ++ c = b ++ d -> length c = length d -> a = b /\ c = d.
Proof. intros a b c d E L. assert (LA : length a = length b) by (apply (f_equal (@length nat)) in E; rewrite !app_length in E; lia). revert b LA E. induction a as [|x a IH]; intros [|y b] LA E; try discriminate LA; [auto|]. cbn [app] in E. injection E as <- E. destruct (IH b ltac:(cbn in LA; lia) E) as (-> & ->). auto. Qed.

Lemma source_inj : forall s t, source_name s = source_name t -> s = t.
Proof. intros s t E. exact (proj1 (app_end _ _ _ _ E eq_refl)). Qed.
Lemma record_inj : forall s t, record_name s = record_name t -> s = t.
Proof. intros s t E. exact (proj1 (app_end _ _ _ _ E eq_refl)). Qed.
Lemma source_record : forall s t, source_name s <> record_name t.
Proof.
  intros s t E. unfold source_name, record_name in E. apply (f_equal (@rev nat)) in E. rewrite !rev_app_distr in E. discriminate E.
Qed.

Lemma put_same : forall d n c, put d n c n = c.
Proof. intros d n c. unfold put. rewrite (proj2 (bytes_eqb_spec n n) eq_refl). reflexivity. Qed.
Lemma put_other : forall d n c m, m <> n -> put d n c m = d m.
Proof. intros d n c m N. unfold put. destruct (bytes_eqb m n) eqn:E; [apply bytes_eqb_spec in E; contradiction|reflexivity]. Qed.

Lemma listed_dec : forall names stem, listed names stem \/ ~ listed names stem.
Proof.
  intros names stem. unfold listed. destruct stem as [|b s]; [right; intros (N & _); congruence|]. destruct (in_dec (list_eq_dec Nat.eq_dec) (source_name (b :: s)) names) as [I|N]; [left; split; [discriminate|exact I]|right; intros (_ & I); contradiction].
Qed.
Lemma listed_skip : forall path rest stem, is_source path = false -> (listed (path :: rest) stem <-> listed rest stem).
Proof.
  intros path rest stem E. unfold listed. split; intros (N & I); split; auto; [|right; exact I]. destruct I as [->|I]; [|exact I]. assert (X : is_source (source_name stem) = true) by (apply source_is; exists stem; auto). congruence.
Qed.

Section Check.
  Variable space : bytes -> bool.
  Variable info : nat -> option (bytes * bool).
  Variable debug : bytes -> bytes.
  Variables (L : language) (fuel : nat).
  Local Notation check_names := (check_names space info debug L fuel).
  Local Notation tree := (tree_of info debug L fuel).

  (** The sources can be read and parsed. *)
  Definition sources (names : list bytes) (d : directory) : Prop :=
    forall stem, listed names stem -> exists txt tr, d (source_name stem) = Some txt /\ tree txt tr.

  (** The record that is written. *)
  Definition refreshed (tr : bytes) (old : option bytes) : bytes :=
    match old with Some e => if compute_diff space e tr then tr else e | None => tr end.
  Definition fresh (d : directory) (stem : bytes) : Prop :=
    exists txt tr e, d (source_name stem) = Some txt /\ tree txt tr /\ d (record_name stem) = Some e /\ trim_str space e = trim_str space tr.

  Lemma diff_iff : forall e a, compute_diff space e a = false <-> trim_str space e = trim_str space a.
  Proof. intros e a. rewrite <- report_iff. unfold report_diff. destruct (compute_diff space e a); split; auto; discriminate. Qed.

  Lemma refreshed_twice : forall tr o, refreshed tr (Some (refreshed tr o)) = refreshed tr o.
  Proof.
    intros tr o. assert (S : compute_diff space tr tr = false) by (apply diff_iff; reflexivity). destruct o as [e|]; cbn [refreshed]; [|rewrite S; reflexivity]. destruct (compute_diff space e tr) eqn:Q; [rewrite S|rewrite Q]; reflexivity.
  Qed.
  Lemma refreshed_trim : forall tr o, trim_str space (refreshed tr o) = trim_str space tr.
  Proof. intros tr [e|]; cbn [refreshed]; [|reflexivity]. destruct (compute_diff space e tr) eqn:Q; [reflexivity|apply diff_iff; exact Q]. Qed.

  Lemma tree_fun : forall txt a b, tree txt a -> tree txt b -> a = b.
  Proof. intros txt a b (f & i & P & D) (f' & i' & P' & D'). rewrite P in P'. injection P' as <- <-. rewrite D in D'. injection D' as <-. reflexivity. Qed.

  Lemma file_rewritten : forall txt tr old, tree txt tr -> check_file space info debug L fuel true (Some txt) old = Ok (Some (refreshed tr old)).
  Proof. intros txt tr old (f & i & P & D). unfold check_file, parse_text. cbn [unwrap bind]. rewrite P. cbn [bind fst]. rewrite D. cbn [bind]. destruct old; reflexivity. Qed.
  Lemma file_checked : forall txt tr old, tree txt tr -> check_file space info debug L fuel false (Some txt) old = match old with Some e => if compute_diff space e tr then Panic else Ok old | None => Panic end.
  Proof.
    intros txt tr old (f & i & P & D). unfold check_file, parse_text. cbn [unwrap bind]. rewrite P. cbn [bind fst]. rewrite D. cbn [bind]. destruct old as [e|]; [|reflexivity]. unfold report_diff. destruct (compute_diff space e tr); reflexivity.
  Qed.

  Lemma names_skip : forall rw path rest d, is_source path = false -> check_names rw (path :: rest) d = check_names rw rest d.
  Proof. intros rw path rest d E. cbn [DirectoryModel.check_names]. fold (is_source path). rewrite E. reflexivity. Qed.
  Lemma names_step : forall rw stem rest d, stem <> [] -> check_names rw (source_name stem :: rest) d =
    (new <- check_file space info debug L fuel rw (d (source_name stem)) (d (record_name stem)) ;; check_names rw rest (put d (record_name stem) new)).
  Proof.
    intros rw stem rest d NE. cbn [DirectoryModel.check_names]. fold (is_source (source_name stem)). rewrite (proj2 (source_is _) (ex_intro _ stem (conj NE eq_refl))). cbn [negb]. rewrite (record_is stem NE). reflexivity.
  Qed.

  Lemma sources_put : forall names d stem c, sources names d -> sources names (put d (record_name stem) c).
  Proof. intros names d stem c S s LI. destruct (S s LI) as (txt & tr & E & TR). exists txt, tr. rewrite put_other by apply source_record. auto. Qed.

  Lemma rewritten : forall names d, sources names d -> exists d', check_names true names d = Ok d'
    /\ (forall stem txt tr, listed names stem -> d (source_name stem) = Some txt -> tree txt tr -> d' (record_name stem) = Some (refreshed tr (d (record_name stem))))
    /\ (forall n, (forall stem, listed names stem -> n <> record_name stem) -> d' n = d n).
  Proof.
    induction names as [|path rest IH]; intros d S; [exists d; split; [reflexivity|]; split; [intros stem txt tr (_ & [])|reflexivity]|].
    destruct (is_source path) eqn:Q.
    - apply source_is in Q. destruct Q as (s0 & NE & ->). destruct (S s0 ltac:(split; [exact NE|left; reflexivity])) as (t0 & r0 & E0 & T0).
      rewrite names_step, E0, (file_rewritten _ _ _ T0) by exact NE. cbn [bind]. set (d1 := put d (record_name s0) (Some (refreshed r0 (d (record_name s0))))).
      assert (S1 : sources rest d1) by (apply sources_put; intros s (N & I); apply S; split; [exact N|right; exact I]).
      destruct (IH d1 S1) as (d' & E & H1 & H2). exists d'. split; [exact E|]. split.
      + intros stem txt tr LI ES TR. destruct (listed_dec rest stem) as [LR|NR].
        * rewrite (H1 stem txt tr LR); [|unfold d1; rewrite put_other by apply source_record; exact ES|exact TR]. unfold d1. destruct (list_eq_dec Nat.eq_dec stem s0) as [->|N].
          -- rewrite put_same. rewrite E0 in ES. injection ES as <-. rewrite (tree_fun _ _ _ T0 TR), refreshed_twice. reflexivity.
          -- rewrite put_other; [reflexivity|]. intros X. exact (N (record_inj _ _ X)).
        * assert (stem = s0) by (destruct LI as (N & [X|X]); [symmetry; exact (source_inj _ _ X)|destruct NR; split; assumption]). subst stem.
          rewrite H2 by (intros s LR X; apply record_inj in X; subst s; contradiction). unfold d1. rewrite put_same. rewrite E0 in ES. injection ES as <-. rewrite (tree_fun _ _ _ T0 TR). reflexivity.
      + intros n N. rewrite H2 by (intros s (NS & I); apply N; split; [exact NS|right; exact I]). unfold d1. apply put_other. apply N. split; [exact NE|left; reflexivity].
    - rewrite names_skip by exact Q. assert (S1 : sources rest d) by (intros s LR; apply S; apply listed_skip; assumption).
      destruct (IH d S1) as (d' & E & H1 & H2). exists d'. split; [exact E|]. split; intros; [apply (H1 _ txt); auto; apply (listed_skip path); assumption|]. apply H2. intros s LR. apply H. apply listed_skip; assumption.
  Qed.

  Lemma checked : forall names d, sources names d ->
    ((forall stem, listed names stem -> fresh d stem) /\ exists d', check_names false names d = Ok d' /\ same_files d' d)
    \/ ((exists stem, listed names stem /\ ~ fresh d stem) /\ check_names false names d = Panic).
  Proof.
    induction names as [|path rest IH]; intros d S; [left; split; [intros stem (_ & [])|]; exists d; split; [reflexivity|intros n; reflexivity]|].
    destruct (is_source path) eqn:Q.
    - apply source_is in Q. destruct Q as (s0 & NE & ->). assert (L0 : listed (source_name s0 :: rest) s0) by (split; [exact NE|left; reflexivity]). destruct (S s0 L0) as (t0 & r0 & E0 & T0).
      rewrite names_step, E0, (file_checked _ _ _ T0) by exact NE. destruct (d (record_name s0)) as [e|] eqn:R.
      2:{ right. split; [|reflexivity]. exists s0. split; [exact L0|]. intros (txt & tr & e & _ & _ & X & _). congruence. }
      destruct (compute_diff space e r0) eqn:D.
      { right. split; [|reflexivity]. exists s0. split; [exact L0|]. intros (txt & tr & e' & X & TR & Y & EQ). rewrite E0 in X. injection X as <-. rewrite R in Y. injection Y as <-. rewrite (tree_fun _ _ _ TR T0) in EQ. apply diff_iff in EQ. congruence. }
      cbn [bind]. set (d1 := put d (record_name s0) (Some e)). assert (SF : same_files d1 d).
      { intros n. unfold d1. destruct (list_eq_dec Nat.eq_dec n (record_name s0)) as [->|N]; [rewrite put_same; auto|apply put_other; exact N]. }
      assert (S1 : sources rest d1) by (apply sources_put; intros s (N & I); apply S; split; [exact N|right; exact I]).
      assert (FR : forall s, fresh d1 s <-> fresh d s) by (intros s; unfold fresh; rewrite !SF; reflexivity).
      destruct (IH d1 S1) as [(A & d' & E & F)|((s & LS & NF) & E)].
      + left. split; [|exists d'; split; [exact E|]; intros n; rewrite F; apply SF]. intros s (N & [X|X]).
        * apply source_inj in X. subst s. exists t0, r0, e. repeat split; auto. apply diff_iff. exact D.
        * apply FR. apply A. split; assumption.
      + right. split; [|exact E]. exists s. split; [destruct LS as (N & I); split; [exact N|right; exact I]|]. rewrite <- FR. exact NF.
    - rewrite names_skip by exact Q. assert (S1 : sources rest d) by (intros s LR; apply S; apply listed_skip; assumption).
      destruct (IH d S1) as [(A & d' & E & F)|((s & LS & NF) & E)].
      + left. split; [intros s LS; apply A; apply (listed_skip path); assumption|]. exists d'. auto.
      + right. split; [|exact E]. exists s. split; [apply listed_skip; assumption|exact NF].
  Qed.

  Lemma missing : forall rw names d stem, listed names stem -> d (source_name stem) = None ->
    (forall s, listed names s -> s <> stem -> exists txt tr, d (source_name s) = Some txt /\ tree txt tr) -> check_names rw names d = Panic.
  Proof.
    intros rw. induction names as [|path rest IH]; intros d stem LS M O; [destruct LS as (_ & [])|]. destruct (is_source path) eqn:Q.
    - apply source_is in Q. destruct Q as (s0 & NE & ->). rewrite names_step by exact NE. destruct (list_eq_dec Nat.eq_dec s0 stem) as [->|N]; [rewrite M; reflexivity|].
      destruct (O s0 ltac:(split; [exact NE|left; reflexivity]) N) as (t0 & r0 & E0 & T0). rewrite E0.
      assert (X : forall new, check_names rw rest (put d (record_name s0) new) = Panic).
      { intros new. apply (IH _ stem).
        - destruct LS as (NS & [X|X]); [apply source_inj in X; contradiction|split; assumption].
        - rewrite put_other by apply source_record. exact M.
        - intros s (NS & I) NS'. rewrite put_other by apply source_record. apply O; [split; [exact NS|right; exact I]|exact NS']. }
      destruct rw; [rewrite (file_rewritten _ _ _ T0); apply X|]. rewrite (file_checked _ _ _ T0). destruct (d (record_name s0)) as [e|]; [|reflexivity]. destruct (compute_diff space e r0); [reflexivity|apply X].
    - rewrite names_skip by exact Q. apply (IH d stem); [apply (listed_skip path); assumption|exact M|]. intros s LR. apply O. apply listed_skip; assumption.
  Qed.
End Check.
