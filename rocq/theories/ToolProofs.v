(** Proofs about the runs of the parser generator. *)
From Coq Require Import List Arith Bool Lia.
From Verif Require Import Base BaseFacts ToolModel ToolSpec.
Import ListNotations.
Open Scope list_scope.

Lemma bytes_eqb_iff : forall a b, bytes_eqb a b = true <-> a = b.
Proof. intros a b. apply (list_eqb_spec _ Nat.eqb Nat.eqb_eq). Qed.
Lemma path_eqb_iff : forall p q, path_eqb p q = true <-> p = q.
Proof.
  intros (d & n) (d' & n'). unfold path_eqb. cbn [fst snd]. rewrite andb_true_iff, !bytes_eqb_iff. split; [intros (-> & ->); reflexivity|intros E; injection E as -> ->; auto].
Qed.
Lemma put_same : forall s p t, put s p t p = Some t.
Proof. intros s p t. unfold put. rewrite (proj2 (path_eqb_iff p p) eq_refl). reflexivity. Qed.
Lemma put_other : forall s p t q, q <> p -> put s p t q = s q.
Proof. intros s p t q N. unfold put. destruct (path_eqb p q) eqn:E; [|reflexivity]. apply path_eqb_iff in E. congruence. Qed.

(** ** Names *)
Lemma last_dot_some : forall s i, last_dot s = Some i <-> exists a b, s = a ++ 46 :: b /\ length a = i /\ ~ In 46 b.
Proof.
  induction s as [|x s IH]; intros i.
  - split; [discriminate|]. intros (a & b & E & _). destruct a; discriminate E.
  - cbn [last_dot]. destruct (last_dot s) as [j|] eqn:L.
    + split.
      * intros E. injection E as <-. destruct (proj1 (IH j) eq_refl) as (a & b & -> & <- & N). exists (x :: a), b. auto.
      * intros (a & b & E & LA & N). destruct a as [|y a].
        -- exfalso. cbn in E. injection E as -> ->. destruct (proj1 (IH j) eq_refl) as (a & b' & -> & _). apply N. apply in_or_app. right. left. reflexivity.
        -- cbn in E. injection E as -> ->. assert (H : Some j = Some (length a)) by (apply IH; exists a, b; auto). injection H as ->. cbn in LA. rewrite LA. reflexivity.
    + assert (NI : ~ In 46 s).
      { clear - L. induction s as [|y s IH]; [intros []|]. cbn in L. destruct (last_dot s); [discriminate|]. destruct (Nat.eqb_spec y 46); [discriminate|]. intros [E|I]; [congruence|exact (IH eq_refl I)]. }
      destruct (Nat.eqb_spec x 46) as [->|NX].
      * split; [intros E; injection E as <-; exists [], s; auto|]. intros (a & b & E & LA & N). destruct a as [|y a]; [cbn in LA; subst; reflexivity|]. exfalso. cbn in E. injection E as _ ->. apply NI. apply in_or_app. right. left. reflexivity.
      * split; [discriminate|]. intros (a & b & E & LA & N). exfalso. destruct a as [|y a]; cbn in E; injection E as -> ->; [exact (NX eq_refl)|]. apply NI. apply in_or_app. right. left. reflexivity.
Qed.

Lemma own_extension : forall d n e, ~ In 46 e -> with_extension (d, n) e = (d, n) <-> has_extension n e.
Proof.
  intros d n e NE. unfold with_extension, has_extension. cbn [fst snd]. split.
  - intros E. injection E as E. exists (file_stem n). split; [|symmetry; exact E]. intros Z. rewrite Z in E. unfold file_stem in Z.
    assert (L : last_dot n = Some 0) by (apply last_dot_some; exists [], e; split; [symmetry; exact E|auto]). rewrite L in Z. rewrite Z in E. discriminate E.
  - intros (stem & NS & ->). f_equal. unfold file_stem. assert (L : last_dot (stem ++ [46] ++ e) = Some (length stem)) by (apply last_dot_some; exists stem, e; auto). rewrite L.
    destruct (length stem) as [|k] eqn:LS; [destruct stem; [destruct (NS eq_refl)|discriminate LS]|]. rewrite <- LS, firstn_app, firstn_all, Nat.sub_diag, firstn_O, app_nil_r. reflexivity.
Qed.

Lemma named_stem : forall stem e, stem <> [] -> ~ In 46 e -> file_stem (stem ++ [46] ++ e) = stem.
Proof.
  intros stem e NS NE. unfold file_stem. assert (L : last_dot (stem ++ [46] ++ e) = Some (length stem)) by (apply last_dot_some; exists stem, e; auto). rewrite L.
  destruct (length stem) as [|k] eqn:LS; [destruct stem; [destruct (NS eq_refl)|discriminate LS]|]. rewrite <- LS, firstn_app, firstn_all, Nat.sub_diag, firstn_O, app_nil_r. reflexivity.
Qed.

(** ** Where it can stop *)

(** [confined W c]: whatever is read, [c] writes only what [W] allows. *)
Inductive confined (W : path -> bytes -> Prop) : prog -> Prop :=
| conf_ret : forall r, confined W (Ret r)
| conf_read : forall p k, (forall o, confined W (k o)) -> confined W (Read p k)
| conf_write : forall p t k, W p t -> confined W k -> confined W (Write p t k).

Lemma crash_confined : forall W c s s', confined W c -> crash c s s' -> forall q, s' q = s q \/ exists t n, W q t /\ s' q = Some (firstn n t).
Proof.
  intros W c s s' CF CR. revert CF. induction CR as [c s|p k s s' CR IH|p t k s s' CR IH|p t k s n]; intros CF q.
  - left. reflexivity.
  - inversion CF; subst. apply IH. auto.
  - inversion CF; subst. destruct (IH ltac:(assumption) q) as [E|E]; [|right; exact E]. rewrite E. destruct (path_eqb p q) eqn:Q.
    + apply path_eqb_iff in Q. subst q. right. exists t, (length t). rewrite put_same, firstn_all. auto.
    + left. unfold put. rewrite Q. reflexivity.
  - inversion CF; subst. unfold put. destruct (path_eqb p q) eqn:Q; [|left; reflexivity]. apply path_eqb_iff in Q. subst q. right. exists t, n. auto.
Qed.

Lemma run_crash : forall c s, crash c s (fst (run c s)).
Proof. induction c as [r|p k IH|p t k IH]; intros s; cbn [run]; constructor; apply IH. Qed.

Lemma confined_then : forall W c k, confined W c -> (forall t, confined W (k t)) -> confined W (then_ok c k).
Proof.
  intros W c k C K. induction C as [r|p f C IH|p t c WT C IH]; cbn [then_ok].
  - destruct r as [[t|]| |]; try constructor. apply K.
  - constructor. exact IH.
  - constructor; assumption.
Qed.

Lemma run_then : forall c k s, run (then_ok c k) s = let (s', r) := run c s in match r with Ok (Done t) => run (k t) s' | _ => (s', r) end.
Proof.
  induction c as [r|p f IH|p t c IH]; intros k s; cbn [then_ok run].
  - destruct r as [[t|]| |]; reflexivity.
  - apply IH.
  - apply IH.
Qed.

Section Tool.
  Variable generate : bytes -> bytes + bytes.
  Variable tests_of : bytes -> bytes.
  Variable cargo_build : option bytes -> option bytes -> option bytes -> bool.
  Variable cargo_run : option bytes -> option bytes -> option bytes -> bytes -> option bytes.
  Variable is_utf8 : bytes -> bool.
  Variables toml_text main_text : bytes.
  Variable base : bytes.
  Let render := render_all generate tests_of cargo_build cargo_run is_utf8 toml_text main_text base.
  Let proc := process generate tests_of cargo_build cargo_run is_utf8 toml_text main_text base.
  Let put_text := put_text_if_changed is_utf8.

  Lemma paths_apart : syntax_path base <> main_path base /\ syntax_path base <> toml_path base /\ main_path base <> toml_path base.
  Proof.
    unfold syntax_path, main_path, toml_path. split; [intros E; discriminate E|]. split; intros E; discriminate E.
  Qed.

  Definition crate_file (p : path) (t : bytes) : Prop :=
    (p = syntax_path base /\ exists g, generate g = inl t) \/ (p = toml_path base /\ t = toml_text) \/ (p = main_path base /\ t = main_text).

  Lemma put_confined : forall (W : path -> bytes -> Prop) p t k, W p t -> confined W k -> confined W (put_text p t k).
  Proof.
    intros W p t k WT K. constructor. intros [o|]; [|constructor; assumption]. destruct (is_utf8 o); [|constructor]. destruct (bytes_eqb o t); [exact K|constructor; assumption].
  Qed.

  Lemma render_confined : forall g t, confined crate_file (render g t).
  Proof.
    intros g t. unfold render, render_all. destruct (generate g) as [parser|e] eqn:G; [|constructor].
    apply put_confined; [left; eauto|]. apply put_confined; [right; left; auto|]. apply put_confined; [right; right; auto|].
    unfold crate. constructor. intros o1. constructor. intros o2. constructor. intros o3. destruct (cargo_build o1 o2 o3); [|constructor].
    constructor. intros p1. constructor. intros p2. constructor. intros p3. destruct (cargo_run p1 p2 p3 _); constructor.
  Qed.

  Lemma proc_confined : forall tk, confined (fun p t => match tk with
      | Generate g => p = with_extension g s_rs /\ exists input, generate input = inl t
      | Examples g => crate_file p t \/ p = with_extension g s_txt end) (proc tk).
  Proof.
    intros [g|g]; unfold proc, process, read_file.
    - constructor. intros [o|]; [|constructor]. destruct (is_utf8 o); [|constructor]. destruct (generate o) as [r|e] eqn:G; [|constructor]. constructor; [eauto|constructor].
    - constructor. intros [o|]; [|constructor]. destruct (is_utf8 o); [|constructor]. apply confined_then.
      + assert (H : forall c, confined crate_file c -> confined (fun p t => crate_file p t \/ p = with_extension g s_txt) c) by (intros c C; induction C; constructor; auto). apply H. apply render_confined.
      + intros t. constructor; [right; reflexivity|constructor].
  Qed.

  (** *** Putting a file in place *)
  Lemma put_run : forall p t k s, (forall o, s p = Some o -> is_utf8 o = true) -> exists s', run (put_text p t k) s = run k s' /\ s' p = Some t /\ (forall q, q <> p -> s' q = s q) /\ (forall q, s' q = s q \/ s' q = Some t).
  Proof.
    intros p t k s U. unfold put_text, put_text_if_changed. cbn [run]. destruct (s p) as [o|] eqn:E.
    - rewrite (U o eq_refl). destruct (bytes_eqb o t) eqn:Q.
      + apply bytes_eqb_iff in Q. subst o. exists s. auto.
      + exists (put s p t). cbn [run]. split; [reflexivity|]. split; [apply put_same|]. split; [intros q N; apply put_other; exact N|]. intros q. unfold put. destruct (path_eqb p q); auto.
    - exists (put s p t). cbn [run]. split; [reflexivity|]. split; [apply put_same|]. split; [intros q N; apply put_other; exact N|]. intros q. unfold put. destruct (path_eqb p q); auto.
  Qed.

  Lemma render_run : forall g t s parser, usable is_utf8 base s -> generate g = inl parser ->
    exists s', run (render g t) s = (s', rendering generate cargo_build cargo_run toml_text main_text g (match t with Some x => x | None => tests_of g end))
      /\ s' (syntax_path base) = Some parser /\ s' (toml_path base) = Some toml_text /\ s' (main_path base) = Some main_text.
  Proof.
    intros g t s parser US G. destruct paths_apart as (A1 & A2 & A3). unfold render, render_all, rendering. rewrite G.
    match goal with |- exists s', run (put_text_if_changed _ _ _ (put_text_if_changed _ _ _ (put_text_if_changed _ _ _ ?F))) _ = _ /\ _ => set (fin := F) end.
    destruct (put_run (syntax_path base) parser (put_text (toml_path base) toml_text (put_text (main_path base) main_text fin)) s) as (s1 & R1 & P1 & O1 & _);
      [intros o E; exact (US _ o (or_introl eq_refl) E)|].
    destruct (put_run (toml_path base) toml_text (put_text (main_path base) main_text fin) s1) as (s2 & R2 & P2 & O2 & _);
      [intros o E; rewrite O1 in E by auto; exact (US _ o (or_intror (or_introl eq_refl)) E)|].
    destruct (put_run (main_path base) main_text fin s2) as (s3 & R3 & P3 & O3 & _);
      [intros o E; rewrite O2, O1 in E by auto; exact (US _ o (or_intror (or_intror eq_refl)) E)|].
    unfold put_text in R1, R2, R3. rewrite R1, R2, R3. clear R1 R2. subst fin.
    clear R3. exists s3. assert (Y1 : s3 (syntax_path base) = Some parser) by (rewrite O3, O2 by auto; exact P1). assert (Y2 : s3 (toml_path base) = Some toml_text) by (rewrite O3 by auto; exact P2).
    unfold crate. cbn [run]. rewrite Y1, Y2, P3. destruct (cargo_build (Some toml_text) (Some main_text) (Some parser)); cbn [run]; [|auto].
    rewrite Y1, Y2, P3. destruct (cargo_run (Some toml_text) (Some main_text) (Some parser) _); cbn [run]; auto.
  Qed.

  Lemma render_result : forall g t s, usable is_utf8 base s -> snd (run (render g t) s) = rendering generate cargo_build cargo_run toml_text main_text g (match t with Some x => x | None => tests_of g end).
  Proof.
    intros g t s US. destruct (generate g) as [parser|e] eqn:G.
    - destruct (render_run g t s parser US G) as (s' & -> & _). reflexivity.
    - unfold render, render_all, rendering. rewrite G. reflexivity.
  Qed.
End Tool.

(** The files between two steps *)
Inductive between : prog -> fs -> fs -> Prop :=
| betw_here : forall c s, between c s s
| betw_read : forall p k s s', between (k (s p)) s s' -> between (Read p k) s s'
| betw_write : forall p t k s s', between k (put s p t) s' -> between (Write p t k) s s'.

Lemma between_confined : forall W c s s', confined W c -> between c s s' -> forall q, s' q = s q \/ exists t, W q t /\ s' q = Some t.
Proof.
  intros W c s s' CF CR. revert CF. induction CR as [c s|p k s s' CR IH|p t k s s' CR IH]; intros CF q.
  - left. reflexivity.
  - inversion CF; subst. apply IH. auto.
  - inversion CF; subst. destruct (IH ltac:(assumption) q) as [E|E]; [|right; exact E]. rewrite E. destruct (path_eqb p q) eqn:Q.
    + apply path_eqb_iff in Q. subst q. right. exists t. rewrite put_same. auto.
    + left. unfold put. rewrite Q. reflexivity.
Qed.

(** ** Threads *)
Lemma nth_set : forall A (l : list A) i a j, i < length l -> nth_error (set_nth i a l) j = if i =? j then Some a else nth_error l j.
Proof.
  intros A. induction l as [|x l IH]; intros i a j L; [cbn in L; lia|]. destruct i as [|i]; destruct j as [|j]; cbn; try reflexivity. cbn in L. rewrite IH by lia. reflexivity.
Qed.

Lemma step_run : forall c s, run (fst (step c s)) (snd (step c s)) = run c s.
Proof. intros [r|p k|p t k] s; reflexivity. Qed.

Section Threads.
  (** The thread [i] is to run [jobs i]; on files with [ok] it would end with [want i]. *)
  Variables (jobs : list prog) (ok : fs -> Prop) (want : nat -> res outcome).
  Hypothesis WANT : forall i c, nth_error jobs i = Some c -> forall s, ok s -> snd (run c s) = want i /\ forall s', between c s s' -> ok s'.
  Hypothesis FINE : forall i c, nth_error jobs i = Some c -> want i <> Panic.

  Definition resting (ts : list thread) (i : nat) : Prop :=
    match nth_error ts i with Some (Waiting c) => nth_error jobs i = Some c | Some (Finished r) => r = want i /\ nth_error jobs i <> None | Some (Running _) => False | None => nth_error jobs i = None end.
  Definition invariant (x : lock * list thread * fs) : Prop :=
    let '(l, ts, s) := x in
    match l with
    | Free => ok s /\ forall i, resting ts i
    | Held j => (exists c, nth_error ts j = Some (Running c) /\ nth_error jobs j <> None /\ snd (run c s) = want j /\ forall s', between c s s' -> ok s') /\ forall i, i <> j -> resting ts i
    | Poisoned => False
    end.

  Lemma turn_invariant : forall x y, turn x y -> invariant x -> invariant y.
  Proof.
    intros x y T I. destruct T as [ts s i c N|ts s i c N|l ts s i c c' s' N NR ST|l ts s i r N].
    - destruct I as (OK & R). assert (LT : i < length ts) by (apply nth_error_Some; congruence). pose proof (R i) as RI. unfold resting in RI. rewrite N in RI. cbn [invariant]. destruct (WANT i c RI s OK) as (W1 & W2). split.
      + exists c. rewrite nth_set, Nat.eqb_refl by exact LT. repeat split; auto. congruence.
      + intros j NJ. unfold resting. rewrite nth_set by exact LT. destruct (Nat.eqb_spec i j); [congruence|]. apply R.
    - destruct I.
    - assert (LT : i < length ts) by (apply nth_error_Some; congruence). destruct l as [|j|]; [destruct I as (_ & R); specialize (R i); unfold resting in R; rewrite N in R; destruct R| |destruct I].
      destruct I as ((c0 & N0 & J & RN & CR) & R). destruct (Nat.eq_dec i j) as [->|NJ].
      2:{ specialize (R i NJ). unfold resting in R. rewrite N in R. destruct R. }
      rewrite N0 in N. injection N as <-. cbn [invariant]. split.
      + exists c'. rewrite nth_set, Nat.eqb_refl by exact LT. split; [reflexivity|]. split; [exact J|]. split.
        * pose proof (step_run c0 s) as SR. rewrite ST in SR. cbn [fst snd] in SR. rewrite SR. exact RN.
        * intros s'' C. apply CR. destruct c0 as [r|p k|p t k]; cbn [step] in ST; injection ST as <- <-; [exact C|constructor; exact C|apply betw_write; exact C].
      + intros k NK. unfold resting. rewrite nth_set by exact LT. destruct (Nat.eqb_spec j k); [congruence|]. apply R. exact NK.
    - assert (LT : i < length ts) by (apply nth_error_Some; congruence). destruct l as [|j|]; [destruct I as (_ & R); specialize (R i); unfold resting in R; rewrite N in R; destruct R| |destruct I].
      destruct I as ((c0 & N0 & J & RN & CR) & R). destruct (Nat.eq_dec i j) as [->|NJ].
      2:{ specialize (R i NJ). unfold resting in R. rewrite N in R. destruct R. }
      rewrite N0 in N. injection N as ->. cbn [run snd] in RN. subst r.
      assert (NP : want j <> Panic) by (destruct (nth_error jobs j) as [c|] eqn:NJ; [exact (FINE j c NJ)|contradiction]).
      assert (Q : ok s /\ forall k, resting (set_nth j (Finished (want j)) ts) k).
      { split; [apply CR; constructor|]. intros k. unfold resting. rewrite nth_set by exact LT. destruct (Nat.eqb_spec j k) as [->|NK]; [split; [reflexivity|exact J]|]. apply R. auto. }
      destruct (want j); [exact Q|contradiction|exact Q].
  Qed.

  Lemma turns_invariant : forall x y, turns x y -> invariant x -> invariant y.
  Proof. intros x y T. induction T; auto. intros I. apply IHT. eapply turn_invariant; eauto. Qed.

  Lemma start_invariant : forall s, ok s -> invariant (Free, map Waiting jobs, s).
  Proof.
    intros s OK. split; [exact OK|]. intros i. unfold resting. destruct (nth_error (map Waiting jobs) i) as [t|] eqn:N.
    - rewrite nth_error_map in N. destruct (nth_error jobs i) as [c|]; [|discriminate]. cbn in N. injection N as <-. reflexivity.
    - rewrite nth_error_map in N. destruct (nth_error jobs i); [discriminate|reflexivity].
  Qed.

  Lemma invariant_moves : forall l ts s, invariant (l, ts, s) -> (exists y, turn (l, ts, s) y) \/ forall i t, nth_error ts i = Some t -> t = Finished (want i).
  Proof.
    intros l ts s I. destruct l as [|j|]; cbn [invariant] in I.
    - destruct I as (_ & R). assert (D : (exists i c, nth_error ts i = Some (Waiting c)) \/ forall i c, nth_error ts i <> Some (Waiting c)).
      { clear R. induction ts as [|t ts IH]; [right; intros [|i] c; discriminate|]. destruct t as [c|c|r]; [left; exists 0, c; reflexivity| |]; (destruct IH as [(i & c' & N)|N]; [left; exists (S i), c'; exact N|right; intros [|i] c'; [discriminate|apply N]]). }
      destruct D as [(i & c & N)|D]; [left; eexists; apply turn_lock; exact N|right]. intros i t N. specialize (R i). unfold resting in R. rewrite N in R. destruct t as [c|c|r]; [destruct (D i c N)|destruct R|destruct R as (-> & _); reflexivity].
    - destruct I as ((c & N & _) & _). left. destruct c as [r|p k|p t k].
      + eexists. apply turn_end. exact N.
      + eexists. eapply turn_step; [exact N|intros r E; discriminate E|reflexivity].
      + eexists. eapply turn_step; [exact N|intros r E; discriminate E|reflexivity].
    - destruct I.
  Qed.
End Threads.
