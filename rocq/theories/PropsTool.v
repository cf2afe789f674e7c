(** C78, C79: the parser generator as a program that is run, stopped, and run several times at once. *)
From Coq Require Import List Arith Bool Lia.
From Verif Require Import Base BaseFacts ToolModel ToolSpec ToolProofs.
From Verif Require GrammarModel LexModel ParserModel HarnessModel HarnessSpec HarnessProofs PropsHarness.
Import ListNotations.
Open Scope list_scope.

Section Tool.
Variable generate : bytes -> bytes + bytes.
Variable tests_of : bytes -> bytes.
Variable cargo_build : option bytes -> option bytes -> option bytes -> bool.
Variable cargo_run : option bytes -> option bytes -> option bytes -> bytes -> option bytes.
Variable is_utf8 : bytes -> bool.
Variables toml_text main_text : bytes.
Variable base : bytes.
Notation render := (render_all generate tests_of cargo_build cargo_run is_utf8 toml_text main_text base).
Notation gen := (process generate tests_of cargo_build cargo_run is_utf8 toml_text main_text base).
Notation expected := (rendering generate cargo_build cargo_run toml_text main_text).

(** * C78: files *)

(** Generating a parser: if the grammar can be read and has no errors, the file of that name with the extension rs holds the parser
    afterwards and no other file was changed; otherwise it fails and nothing was changed. *)
Theorem C78_generate : forall d stem e s, stem <> [] -> ~ In 46 e -> let g := (d, stem ++ [46] ++ e) in
  (forall text parser, s g = Some text -> is_utf8 text = true -> generate text = inl parser ->
    exists s', run (gen (Generate g)) s = (s', Ok (Done [])) /\ s' (d, stem ++ [46] ++ s_rs) = Some parser /\ forall q, q <> (d, stem ++ [46] ++ s_rs) -> s' q = s q)
  /\ ((s g = None \/ (exists text, s g = Some text /\ (is_utf8 text = false \/ exists m, generate text = inr m))) -> run (gen (Generate g)) s = (s, Ok Failed)).
Proof.
  intros d stem e s NS NE g. assert (W : with_extension g s_rs = (d, stem ++ [46] ++ s_rs)) by (unfold with_extension, g; cbn [fst snd]; rewrite (named_stem stem e NS NE); reflexivity). split.
  - intros text parser S U G. exists (put s (d, stem ++ [46] ++ s_rs) parser). unfold process, read_file. cbn [run]. rewrite S, U, G. cbn [run]. rewrite W. split; [reflexivity|]. split; [apply put_same|]. intros q N. apply put_other. exact N.
  - intros H. unfold process, read_file. cbn [run]. destruct H as [H|(text & H & U)]; rewrite H; [reflexivity|]. destruct (is_utf8 text) eqn:Q; [|reflexivity]. destruct U as [U|(m & U)]; [discriminate U|]. rewrite U. reflexivity.
Qed.

(** Wherever generating is stopped: only the file with the extension rs may have changed, and it holds a first part of a parser then. The
    grammar is as it was, unless it has that extension itself. *)
Theorem C78_stopped : forall g s s', crash (gen (Generate g)) s s' ->
  (forall q, q <> with_extension g s_rs -> s' q = s q) /\ (~ has_extension (snd g) s_rs -> s' g = s g)
  /\ (s' (with_extension g s_rs) = s (with_extension g s_rs) \/ exists text parser n, generate text = inl parser /\ s' (with_extension g s_rs) = Some (firstn n parser)).
Proof.
  intros g s s' C. pose proof (crash_confined _ _ _ _ (proc_confined generate tests_of cargo_build cargo_run is_utf8 toml_text main_text base (Generate g)) C) as H.
  assert (O : forall q, q <> with_extension g s_rs -> s' q = s q) by (intros q N; destruct (H q) as [E|(t & n & (E & _) & _)]; [exact E|contradiction]).
  split; [exact O|]. split.
  - intros NE. apply O. intros E. apply NE. destruct g as (d & n). apply (own_extension d n s_rs); [intros [X|[X|[]]]; discriminate X|symmetry; exact E].
  - destruct (H (with_extension g s_rs)) as [E|(t & n & (_ & text & G) & E)]; [left; exact E|right; eauto 6].
Qed.

(** Rendering tests, stopped anywhere: only the three files of the crate and the file with the extension txt may have changed. *)
Theorem C78_examples_stopped : forall g s s', crash (gen (Examples g)) s s' ->
  forall q, q <> syntax_path base -> q <> toml_path base -> q <> main_path base -> q <> with_extension g s_txt -> s' q = s q.
Proof.
  intros g s s' C q N1 N2 N3 N4. destruct (crash_confined _ _ _ _ (proc_confined generate tests_of cargo_build cargo_run is_utf8 toml_text main_text base (Examples g)) C q) as [E|(t & n & [[(E & _)|[(E & _)|(E & _)]]|E] & _)]; [exact E|contradiction..].
Qed.

(** * C79: rendering *)

(** Whatever is left of earlier runs, rendering gives what the parser of the grammar makes of the tests, if what is left can be read. *)
Theorem C79_render : forall g test s, usable is_utf8 base s -> snd (run (render g test) s) = expected g (match test with Some x => x | None => tests_of g end).
Proof. intros g test s US. apply render_result. exact US. Qed.

(** What is left of runs of the program can be read, wherever they were stopped, if a text can be read that was cut off. So the program
    recovers: after any history of stopped runs with any grammars, rendering gives what it gives at first. *)
Theorem C79_recover : (forall g parser n, generate g = inl parser -> is_utf8 (firstn n parser) = true) -> (forall n, is_utf8 (firstn n toml_text) = true) -> (forall n, is_utf8 (firstn n main_text) = true) ->
  forall s s' g test, usable is_utf8 base s -> history (fun c => (exists t, c = gen t) \/ exists g t, c = render g t) s s' ->
  snd (run (render g test) s') = expected g (match test with Some x => x | None => tests_of g end).
Proof.
  intros UG UT UM s s' g test US H. apply C79_render. induction H as [s|c s s' s'' P C H IH]; [exact US|]. apply IH. clear IH H. intros p t PP S.
  assert (X : forall p, p = syntax_path base \/ p = toml_path base \/ p = main_path base -> forall g, p <> with_extension g s_txt).
  { intros q Q (d & n) E. unfold with_extension in E. cbn [fst snd] in E. apply (f_equal (fun x => rev (snd x))) in E. cbn [fst snd] in E. rewrite !rev_app_distr in E. destruct Q as [->|[->| ->]]; cbn in E; discriminate E. }
  assert (Y : s' p = s p \/ exists t n, is_utf8 (firstn n t) = true /\ s' p = Some (firstn n t)).
  { assert (Z : forall p t n, crate_file generate toml_text main_text base p t -> is_utf8 (firstn n t) = true) by (intros q u n [(_ & g0 & G)|[(_ & ->)|(_ & ->)]]; auto; exact (UG _ _ n G)).
    destruct P as [(tk & ->)|(g0 & t0 & ->)].
    - destruct (crash_confined _ _ _ _ (proc_confined generate tests_of cargo_build cargo_run is_utf8 toml_text main_text base tk) C p) as [E|(u & n & W & E)]; [left; exact E|right]. exists u, n. split; [|exact E]. destruct tk as [g0|g0].
      + destruct W as (_ & input & G). exact (UG _ _ n G).
      + destruct W as [W|W]; [exact (Z _ _ n W)|]. destruct (X p PP g0 W).
    - destruct (crash_confined _ _ _ _ (render_confined generate tests_of cargo_build cargo_run is_utf8 toml_text main_text base g0 t0) C p) as [E|(u & n & W & E)]; [left; exact E|right]. exists u, n. split; [exact (Z _ _ n W)|exact E]. }
  destruct Y as [E|(u & n & U & E)]; rewrite E in S; [exact (US p t PP S)|]. injection S as <-. exact U.
Qed.

(** Rendering a second time with the same grammar writes nothing, so that nothing has to be built again. *)
Theorem C79_unchanged : forall g parser test test' s, usable is_utf8 base s -> generate g = inl parser -> is_utf8 parser = true -> is_utf8 toml_text = true -> is_utf8 main_text = true ->
  writes (render g test') (fst (run (render g test) s)) = [].
Proof.
  intros g parser test test' s US G U1 U2 U3. destruct (render_run generate tests_of cargo_build cargo_run is_utf8 toml_text main_text base g test s parser US G) as (s' & R & S1 & S2 & S3).
  rewrite R. cbn [fst]. unfold render_all. rewrite G. unfold put_text_if_changed, crate. cbn [writes]. assert (RF : forall x, bytes_eqb x x = true) by (intros x; apply bytes_eqb_iff; reflexivity).
  rewrite S1, U1, RF. cbn [writes]. rewrite S2, U2, RF. cbn [writes]. rewrite S3, U3, RF. cbn [writes]. rewrite S1, S2, S3.
  destruct (cargo_build _ _ _); cbn [writes]; [|reflexivity]. rewrite S1, S2, S3. destruct (cargo_run _ _ _ _); reflexivity.
Qed.

(** In the editor several tests can be rendered at once: in every order of the turns of the threads each gets what it would get alone. *)
Theorem C79_threads : forall asked s l ts s', (forall g parser, generate g = inl parser -> is_utf8 parser = true) -> is_utf8 toml_text = true -> is_utf8 main_text = true ->
  usable is_utf8 base s -> (forall g t, In (g, t) asked -> expected g t <> Panic) ->
  turns (Free, map (fun x => Waiting (render (fst x) (Some (snd x)))) asked, s) (l, ts, s') ->
  (forall i r, nth_error ts i = Some (Finished r) -> exists g t, nth_error asked i = Some (g, t) /\ r = expected g t)
  /\ ((exists y, turn (l, ts, s') y) \/ forall i t, nth_error ts i = Some t -> exists r, t = Finished r).
Proof.
  intros asked s l ts s' UG UT UM US NP T. set (jobs := map (fun x => render (fst x) (Some (snd x))) asked).
  set (want := fun i => match nth_error asked i with Some (g, t) => expected g t | None => Panic end).
  assert (J : forall i c, nth_error jobs i = Some c -> exists g t, nth_error asked i = Some (g, t) /\ c = render g (Some t) /\ want i = expected g t).
  { intros i c N. unfold jobs in N. rewrite nth_error_map in N. unfold want. destruct (nth_error asked i) as [(g, t)|] eqn:A; [|discriminate N]. cbn in N. injection N as <-. exists g, t. auto. }
  assert (W : forall i c, nth_error jobs i = Some c -> forall s, usable is_utf8 base s -> snd (run c s) = want i /\ forall s', between c s s' -> usable is_utf8 base s').
  { intros i c N s0 US0. destruct (J i c N) as (g & t & A & -> & ->). split; [apply (C79_render g (Some t) s0 US0)|]. intros s1 B p u PP S.
    destruct (between_confined _ _ _ _ (render_confined generate tests_of cargo_build cargo_run is_utf8 toml_text main_text base g (Some t)) B p) as [E|(v & CF & E)]; rewrite E in S; [exact (US0 p u PP S)|]. injection S as <-.
    destruct CF as [(_ & g0 & G)|[(_ & ->)|(_ & ->)]]; auto. exact (UG _ _ G). }
  assert (F : forall i c, nth_error jobs i = Some c -> want i <> Panic) by (intros i c N; destruct (J i c N) as (g & t & A & _ & ->); apply NP; exact (nth_error_In _ _ A)).
  assert (M : map (fun x => Waiting (render (fst x) (Some (snd x)))) asked = map Waiting jobs) by (unfold jobs; rewrite map_map; reflexivity). rewrite M in T.
  pose proof (turns_invariant jobs (usable is_utf8 base) want W F _ _ T (start_invariant jobs (usable is_utf8 base) want s US)) as I. split.
  - intros i r N. assert (R0 : resting jobs want ts i).
    { destruct l as [|j|]; cbn [invariant] in I; [apply I| |destruct I]. destruct (Nat.eq_dec i j) as [->|NJ]; [|apply I; exact NJ]. exfalso. destruct I as ((c & N' & _) & _). congruence. }
    unfold resting in R0. rewrite N in R0. destruct R0 as (-> & NJ). destruct (nth_error jobs i) as [c|] eqn:JI; [|contradiction]. destruct (J i c JI) as (g & t & A & _ & E). exists g, t. auto.
  - destruct (invariant_moves jobs (usable is_utf8 base) want l ts s' I) as [H|H]; [left; exact H|right]. intros i t N. exists (want i). apply H. exact N.
Qed.

(** Rendering all tests of a grammar from the command line writes what they give to the file with the extension txt. *)
Theorem C79_examples : forall g text o s, usable is_utf8 base s -> s g = Some text -> is_utf8 text = true -> expected text (tests_of text) = Ok (Done o) ->
  exists s', run (gen (Examples g)) s = (s', Ok (Done [])) /\ s' (with_extension g s_txt) = Some o.
Proof.
  intros g text o s US S U E. unfold process, read_file. cbn [run]. rewrite S, U. rewrite run_then. pose proof (C79_render text None s US) as R. cbn iota in R. rewrite E in R.
  destruct (run (render text None) s) as (s1 & r). cbn [snd] in R. subst r. cbn [run]. eexists. split; [reflexivity|apply put_same].
Qed.

(** With C76: if the program that is built does what it is written to do ([HarnessModel.child] for the language of the grammar), then the
    file holds the trees of the tests, each with two line breaks behind it. *)
Theorem C79_trees : forall info debug L fuel g text parser ts ds s, usable is_utf8 base s -> s g = Some text -> is_utf8 text = true ->
  generate text = inl parser -> cargo_build (Some toml_text) (Some main_text) (Some parser) = true ->
  (forall input, cargo_run (Some toml_text) (Some main_text) (Some parser) input = match HarnessModel.child info debug L fuel input with Ok o => Some o | _ => None end) ->
  tests_of text = HarnessModel.join HarnessModel.stars ts -> HarnessSpec.separable ts -> Forall2 (HarnessSpec.tree_of info debug L fuel) ts ds ->
  exists s', run (gen (Examples g)) s = (s', Ok (Done [])) /\ s' (with_extension g s_txt) = Some (flat_map (fun d => d ++ [10; 10]) ds).
Proof.
  intros info debug L fuel g text parser ts ds s US S U G B CR TS SP F. apply (C79_examples g text _ s US S U). unfold rendering. rewrite G, B, CR, TS. unfold HarnessModel.child.
  rewrite (proj2 (HarnessProofs.split_iff _) SP), (PropsHarness.rendered_all info debug L fuel ts ds F). reflexivity.
Qed.
End Tool.
Print Assumptions C78_generate.
Print Assumptions C78_stopped.
Print Assumptions C78_examples_stopped.
Print Assumptions C79_render.
Print Assumptions C79_recover.
Print Assumptions C79_unchanged.
Print Assumptions C79_threads.
Print Assumptions C79_examples.
Print Assumptions C79_trees.

(** * A small world *)

(** A generator that puts [112] before the grammar, and does not accept grammars that begin with [33]; a parser says its text and the test,
    but panics at the test [[63]]. Texts with a byte above 127 at their end are not whole. *)
Definition gen0 (g : bytes) : bytes + bytes := match g with 33 :: _ => inr [109] | _ => inl (112 :: g) end.
Definition build0 (t m y : option bytes) : bool := match t, m, y with Some _, Some _, Some _ => true | _, _, _ => false end.
Definition run0 (t m y : option bytes) (x : bytes) : option bytes := match y, x with Some y, [63] => None | Some y, _ => Some (y ++ [58] ++ x) | None, _ => None end.
Definition utf0 (x : bytes) : bool := match rev x with b :: _ => Nat.ltb b 128 | [] => true end.
Definition render0 := render_all gen0 (fun g => g ++ [116]) build0 run0 utf0 [1] [2] [47].
Definition process0 := process gen0 (fun g => g ++ [116]) build0 run0 utf0 [1] [2] [47].
Definition empty : fs := fun _ => None.
Definition dir : bytes := [100].
Definition g_fall : path := (dir, [103; 46; 102]).

(** A grammar is generated and then rendered; nothing is written when it is rendered again. *)
Example C78_case : let s := put empty g_fall [97] in
  snd (run (process0 (Generate g_fall)) s) = Ok (Done []) /\ fst (run (process0 (Generate g_fall)) s) (dir, [103; 46] ++ s_rs) = Some [112; 97]
  /\ run (process0 (Generate g_fall)) (put empty g_fall [33; 97]) = (put empty g_fall [33; 97], Ok Failed)
  /\ crash (process0 (Generate g_fall)) s (put s (with_extension g_fall s_rs) [112]) /\ ~ has_extension (snd g_fall) s_rs.
Proof.
  split; [vm_compute; reflexivity|]. split; [vm_compute; reflexivity|]. split; [reflexivity|]. split.
  - unfold process0, process, read_file. apply crash_read. cbn. apply (crash_inside _ [112; 97] _ _ 1).
  - intros H. apply (own_extension dir [103; 46; 102] s_rs) in H; [vm_compute in H; discriminate H|intros [X|[X|[]]]; discriminate X].
Qed.

Example C79_case : let s := put empty g_fall [97] in
  usable utf0 [47] s /\ snd (run (render0 [97] None) s) = Ok (Done [112; 97; 58; 97; 116])
  /\ (let s1 := put (put s (syntax_path [47]) [112]) (toml_path [47]) [] in snd (run (render0 [97] (Some [98])) s1) = Ok (Done [112; 97; 58; 98]))
  /\ length (writes (render0 [97] None) s) = 3 /\ writes (render0 [97] (Some [98])) (fst (run (render0 [97] None) s)) = []
  /\ fst (run (process0 (Examples g_fall)) s) (with_extension g_fall s_txt) = Some [112; 97; 58; 97; 116].
Proof.
  split; [|vm_compute; repeat split; reflexivity]. intros p t [->|[->| ->]] E; vm_compute in E; discriminate E.
Qed.

(** The turns that happen if the threads are asked to go on in this order *)
Fixpoint follow (order : list nat) (x : lock * list thread * fs) : lock * list thread * fs :=
  match order with
  | [] => x
  | i :: order =>
      let '(l, ts, s) := x in
      follow order
        (match nth_error ts i, l with
         | Some (Waiting c), Free => (Held i, set_nth i (Running c) ts, s)
         | Some (Waiting c), Poisoned => (Poisoned, set_nth i (Finished Panic) ts, s)
         | Some (Running (Ret r)), _ => (match r with Panic => Poisoned | _ => Free end, set_nth i (Finished r) ts, s)
         | Some (Running c), _ => let (c', s') := step c s in (l, set_nth i (Running c') ts, s')
         | _, _ => x
         end)
  end.
Lemma follow_turns : forall order x l ts, fst (follow order x) = (l, ts) -> exists s', turns x (l, ts, s').
Proof.
  induction order as [|i order IH]; intros x l ts E; cbn [follow] in E.
  - destruct x as ((l0 & ts0) & s). cbn in E. injection E as -> ->. exists s. apply turns_none.
  - destruct x as ((l0 & ts0) & s). destruct (nth_error ts0 i) as [[c|c|r]|] eqn:N; [destruct l0| |destruct l0|destruct l0]; try (exact (IH _ _ _ E)).
    + destruct (IH _ _ _ E) as (s' & T). exists s'. eapply turns_more; [apply turn_lock; exact N|exact T].
    + destruct (IH _ _ _ E) as (s' & T). exists s'. eapply turns_more; [eapply turn_poisoned; exact N|exact T].
    + destruct c as [r|p k|p t k].
      * assert (E' : fst (follow order (match r with Panic => Poisoned | _ => Free end, set_nth i (Finished r) ts0, s)) = (l, ts)) by (destruct l0; exact E).
        destruct (IH _ _ _ E') as (s' & T). exists s'. eapply turns_more; [apply turn_end; exact N|exact T].
      * assert (E' : fst (follow order (l0, set_nth i (Running (k (s p))) ts0, s)) = (l, ts)) by (destruct l0; exact E).
        destruct (IH _ _ _ E') as (s' & T). exists s'. eapply turns_more; [eapply turn_step; [exact N|intros r R; discriminate R|reflexivity]|exact T].
      * assert (E' : fst (follow order (l0, set_nth i (Running k) ts0, put s p t)) = (l, ts)) by (destruct l0; exact E).
        destruct (IH _ _ _ E') as (s' & T). exists s'. eapply turns_more; [eapply turn_step; [exact N|intros r R; discriminate R|reflexivity]|exact T].
Qed.

(** Two threads, the second of which asks for another grammar: it cannot begin before the first has ended. *)
Example C79_threads_case : exists s', turns (Free, map Waiting [render0 [97] (Some [120]); render0 [98] (Some [121])], empty)
  (Free, [Finished (Ok (Done [112; 97; 58; 120])); Finished (Ok (Done [112; 98; 58; 121]))], s').
Proof. apply (follow_turns ([0; 1; 0; 1; 1] ++ repeat 0 20 ++ repeat 1 20)). vm_compute. reflexivity. Qed.

(** * What does not hold *)

(** A grammar whose name has the extension rs is overwritten by its parser, and one with the extension txt by what its tests give. *)
Theorem C78_own_name_refuted : exists g g' s, has_extension (snd g) s_rs /\ has_extension (snd g') s_txt /\ s g = Some [97] /\ s g' = Some [97]
  /\ fst (run (process0 (Generate g)) s) g = Some [112; 97] /\ fst (run (process0 (Examples g')) s) g' = Some [112; 97; 58; 97; 116].
Proof.
  exists (dir, [103; 46] ++ s_rs), (dir, [103; 46] ++ s_txt), (put (put empty (dir, [103; 46] ++ s_rs) [97]) (dir, [103; 46] ++ s_txt) [97]).
  split; [exists [103]; split; [discriminate|reflexivity]|]. split; [exists [103]; split; [discriminate|reflexivity]|]. vm_compute. repeat split; reflexivity.
Qed.
Print Assumptions C78_own_name_refuted.

(** The parser is not written at once: stopping may replace a good parser by half of one. *)
Theorem C78_half_refuted : exists s s', crash (process0 (Generate g_fall)) s s' /\ s (with_extension g_fall s_rs) = Some [112; 97] /\ s' (with_extension g_fall s_rs) = Some [112].
Proof.
  exists (put (put empty g_fall [97]) (with_extension g_fall s_rs) [112; 97]), (put (put (put empty g_fall [97]) (with_extension g_fall s_rs) [112; 97]) (with_extension g_fall s_rs) [112]).
  split; [|split; vm_compute; reflexivity]. unfold process0, process, read_file. apply crash_read. cbn. apply (crash_inside _ [112; 97] _ _ 1).
Qed.
Print Assumptions C78_half_refuted.

(** Two processes share the directory for temporary files, and no lock: one can show the tests with the parser of the other. *)
Theorem C79_processes_refuted : exists order, fst (play order [render0 [97] (Some [120]); render0 [98] (Some [121])] empty)
  = [Ret (Ok (Done [112; 98; 58; 120])); Ret (Ok (Done [112; 98; 58; 121]))] /\ rendering gen0 build0 run0 [1] [2] [97] [120] = Ok (Done [112; 97; 58; 120]).
Proof. exists (repeat 0 6 ++ repeat 1 2 ++ repeat 0 6 ++ repeat 1 20). split; vm_compute; reflexivity. Qed.
Print Assumptions C79_processes_refuted.

(** A test for which the parser panics poisons the lock: what is asked for later is not rendered, though alone it would be. *)
Theorem C79_poisoned_refuted : exists s', turns (Free, map Waiting [render0 [97] (Some [63]); render0 [97] (Some [120])], empty) (Poisoned, [Finished Panic; Finished Panic], s')
  /\ rendering gen0 build0 run0 [1] [2] [97] [120] = Ok (Done [112; 97; 58; 120]).
Proof.
  destruct (follow_turns (repeat 0 30 ++ repeat 1 3) (Free, map Waiting [render0 [97] (Some [63]); render0 [97] (Some [120])], empty) Poisoned [Finished Panic; Finished Panic] ltac:(vm_compute; reflexivity)) as (s' & T).
  exists s'. split; [exact T|reflexivity].
Qed.
Print Assumptions C79_poisoned_refuted.

(** If writing stops inside of a character, what is left is not UTF-8, and rendering fails from then on, with every grammar. *)
Theorem C79_stuck_refuted : exists s, crash (render0 [195; 32] (Some [120])) empty s /\ forall g test, (forall m, gen0 g <> inr m) -> run (render0 g test) s = (s, Ok Failed).
Proof.
  exists (put empty (syntax_path [47]) [112; 195]). split.
  - unfold render0, render_all. cbn [gen0]. unfold put_text_if_changed at 1. apply crash_read. cbn. apply (crash_inside _ [112; 195; 32] _ _ 2).
  - intros g test H. unfold render0, render_all. destruct (gen0 g) as [parser|m]; [|destruct (H m eq_refl)]. reflexivity.
Qed.
Print Assumptions C79_stuck_refuted.
