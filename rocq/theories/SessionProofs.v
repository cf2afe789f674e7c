(** The plugin's files are the files of the documents' texts. *)
From Coq Require Import List Arith Bool Lia.
From Verif Require Import Base BaseFacts TextModel EditModel TextSpec TextProofs VsSpec VsProofs LexModel TreeModel GrammarModel ParserModel ConvertModel
  ReparseModel ReparseSpec PropsReparse ScanModel ScanSpec ScanProofs RegexSpec SessionModel SessionSpec.
Import ListNotations.

Lemma characters_utf8 : forall d, characters d -> utf8 (contents d).
Proof. intros d H. exists d. split; [exact H|reflexivity]. Qed.
Lemma characters_valid : forall d, characters d -> Forall valid_char d.
Proof. intros d H. eapply Forall_impl; [|exact H]. intros c (V & _). exact V. Qed.

Lemma ascii_lengths : forall d, Forall (fun c : bytes => length c = 1) d -> units d = length d /\ length (contents d) = length d.
Proof.
  induction 1 as [|c d E F (IH1 & IH2)]; [split; reflexivity|]. unfold units, contents in *. cbn [map list_sum fold_right concat length]. rewrite app_length, E. cbn [Nat.eqb].
  change (fold_right Nat.add 0) with list_sum. lia.
Qed.

(** One change of a text, as the edit the backend makes of it. *)
Lemma one_change : forall (a b c ins : document), characters (a ++ b ++ c) -> characters ins ->
  exists ops, from_vs_edits (as_text (contents (a ++ b ++ c))) [mkVs (mkRange (length (contents a)) (length (contents a) + length (contents b))) (contents ins)] = Ok ops
    /\ apply ops (as_text (contents (a ++ b ++ c))) = Ok (contents (a ++ ins ++ c)) /\ ascending ops /\ inserts_utf8 ops.
Proof.
  intros a b c ins V IV. set (s := contents (a ++ b ++ c)). set (e := mkVs _ _). pose proof (characters_valid _ V) as VV.
  assert (ES : s = contents a ++ contents b ++ contents c) by (unfold s, contents; rewrite !concat_app; reflexivity).
  assert (LS : length s = length (contents a) + length (contents b) + length (contents c)) by (rewrite ES, !app_length; lia).
  assert (A1 : aligned s (length (contents a))) by (exact (aligned_concat a (b ++ c) VV)).
  assert (A2 : aligned s (length (contents a) + length (contents b))).
  { assert (X : aligned (concat ((a ++ b) ++ c)) (length (concat (a ++ b)))) by (apply aligned_concat; rewrite <- app_assoc; exact VV).
    rewrite <- app_assoc in X.
    replace (length (contents a) + length (contents b)) with (length (concat (a ++ b))) by (unfold contents; rewrite concat_app, app_length; reflexivity). exact X. }
  destruct (from_vs_ok s [e]) as (ops & E & AP).
  - cbn [map ordered repl_of_vs r_from r_to e vs_delete rstart rend]. lia.
  - constructor; [cbn [repl_of_vs r_from r_to e vs_delete rstart rend]; auto|constructor].
  - exists ops. split; [exact E|]. split.
    { rewrite AP. f_equal. cbn [map splice repl_of_vs r_from r_to r_what e vs_delete vs_insert rstart rend]. unfold sub. rewrite !Nat.sub_0_r, LS. cbn [skipn]. rewrite ES.
      rewrite firstn_app, Nat.sub_diag, firstn_O, firstn_all, app_nil_r. replace (contents (a ++ ins ++ c)) with (contents a ++ contents ins ++ contents c) by (unfold contents; rewrite !concat_app; reflexivity). f_equal. f_equal.
      rewrite app_assoc, skipn_app, app_length, Nat.sub_diag. rewrite skipn_all2 by (rewrite app_length; lia). cbn [skipn app]. apply firstn_all2. lia. }
    unfold from_vs_edits, build_edit in E. destruct (eb_new (as_text s)) as [eb| |] eqn:EN; try discriminate E. cbn [bind map] in E.
    assert (EB : eb = mkEB [] 0 (length s)).
    { unfold eb_new in EN. destruct (text_len (as_text s)) as [l| |] eqn:TL; try discriminate EN. cbn [bind] in EN. injection EN as <-. f_equal.
      rewrite text_len_ok in TL by apply as_text_wf. injection TL as <-. unfold bytes_of, as_text. cbn [trange owned rstart rend]. rewrite sub_full. reflexivity. }
    subst eb. cbn [run_calls run_call] in E. unfold eb_replace in E. rewrite advance_shape in E by (cbn; lia). cbn [bind segments last_offset eb_text_len app e vs_delete vs_insert rstart rend] in E.
    rewrite range_len_ok in E by (unfold proper; cbn [rstart rend]; lia). cbn [bind rstart rend] in E. unfold eb_build, insert_, delete_len in E. cbn [segments last_offset eb_text_len] in E.
    rewrite advance_shape in E by (cbn [last_offset eb_text_len]; lia). cbn [bind segments last_offset eb_text_len] in E. injection E as <-. split.
    + apply (ltr_ascending _ 0). destruct (length (contents a)) as [|k]; destruct (_ + _ =? length s); cbn [app left_to_right rstart rend]; repeat split; lia.
    + apply Forall_app. split; [apply Forall_app; split|].
      * destruct (length (contents a)); repeat constructor.
      * repeat constructor. apply characters_utf8. exact IV.
      * destruct (_ + _ =? length s); repeat constructor.
Qed.

Section Session.
  Variables (L : language) (root : option nat) (known : nat -> bool) (fine : bytes -> Prop).
  Hypothesis PARSES : forall txt, utf8 txt -> exists x fuel, forall more, parse_file L (fuel + more) txt = Ok x.
  Hypothesis ROOTED : forall fuel txt x, utf8 txt -> parse_file L fuel txt = Ok x -> wrap root x = Ok x /\ f_text (fst x) = txt.
  Hypothesis EDITS : forall fuel0 fuel old f inc ops new x, utf8 old -> fine old -> inserts_utf8 ops -> ascending ops ->
    parse_file L fuel0 old = Ok (f, inc) -> apply ops (as_text old) = Ok new -> parse_file L fuel new = Ok x -> reparse_file L fuel f inc ops = Ok x.

  Definition faithful (fuel : nat) (s : session) : Prop :=
    (forall u, characters (texts s u)) /\ forall u x, docs s u = Some x -> known u = true /\ parse_file L fuel (contents (texts s u)) = Ok x.

  Lemma backend_parses : forall fuel d x, characters d -> parse_file L fuel (contents d) = Ok x -> backend_parse L root fuel (contents d) = Ok x.
  Proof. intros fuel d x C P. unfold backend_parse. rewrite P. cbn [bind]. exact (proj1 (ROOTED _ _ _ (characters_utf8 _ C) P)). Qed.

  Lemma faithful_put : forall fuel s u x, faithful fuel s -> known u = true -> parse_file L fuel (contents (texts s u)) = Ok x -> faithful fuel (mkSession (texts s) (set (docs s) u (Some x))).
  Proof.
    intros fuel s u x (C & D) K P. split; [exact C|]. intros w y. cbn [docs texts]. unfold set. destruct (w =? u) eqn:E; [|apply D].
    apply Nat.eqb_eq in E. subst w. intros H. injection H as <-. auto.
  Qed.
  Lemma faithful_drop : forall fuel s u, faithful fuel s -> faithful fuel (mkSession (texts s) (set (docs s) u None)).
  Proof.
    intros fuel s u (C & D). split; [exact C|]. intros w y. cbn [docs texts]. unfold set. destruct (w =? u) eqn:E; [discriminate|apply D].
  Qed.
  (** The text of a document changes, and its file is replaced or dropped. *)
  Lemma faithful_text : forall fuel s u d v, faithful fuel s -> characters d -> (forall x, v = Some x -> known u = true /\ parse_file L fuel (contents d) = Ok x) ->
    faithful fuel (mkSession (set (texts s) u d) (set (docs s) u v)).
  Proof.
    intros fuel s u d v (C & D) CD V. split; cbn [docs texts]; unfold set.
    - intros w. destruct (w =? u); auto.
    - intros w y. destruct (w =? u) eqn:E; [apply Nat.eqb_eq in E; subst w; apply V|apply D].
  Qed.
  (** Documents of other languages have no file. *)
  Lemma faithful_other : forall fuel s u d, faithful fuel s -> characters d -> known u = false -> faithful fuel (mkSession (set (texts s) u d) (docs s)).
  Proof.
    intros fuel s u d (C & D) CD K. split; cbn [docs texts]; unfold set.
    - intros w. destruct (w =? u); auto.
    - intros w y H. destruct (D w y H) as (KW & P). split; [exact KW|]. destruct (w =? u) eqn:E; [|exact P]. apply Nat.eqb_eq in E. congruence.
  Qed.

  Lemma refresh_ok : forall fuel active s, faithful fuel s -> (forall a, active = Some a -> exists x, parse_file L fuel (contents (texts s a)) = Ok x) ->
    exists s', refresh L root known fuel active s = Ok s' /\ faithful fuel s' /\ texts s' = texts s /\ forall u x, docs s u = Some x -> docs s' u = Some x.
  Proof.
    intros fuel active s F P. destruct active as [a|]; cbn [refresh]; [|exists s; auto]. destruct (known a) eqn:K; [|exists s; auto].
    destruct (docs s a) as [y|] eqn:D; [exists s; auto|]. destruct (P a eq_refl) as (x & PX). rewrite (backend_parses _ _ _ (proj1 F a) PX). cbn [bind].
    eexists. split; [reflexivity|]. split; [apply faithful_put; assumption|]. split; [reflexivity|]. intros u z DU. cbn [docs]. unfold set. destruct (u =? a) eqn:E; [|exact DU].
    apply Nat.eqb_eq in E. congruence.
  Qed.

  Lemma get_file_ok : forall fuel active s u, faithful fuel s -> (forall a, active = Some a -> exists x, parse_file L fuel (contents (texts s a)) = Ok x) ->
    (exists x, parse_file L fuel (contents (texts s u)) = Ok x) ->
    exists s', faithful fuel s' /\ texts s' = texts s /\
      if known u then exists x, parse_file L fuel (contents (texts s u)) = Ok x /\ get_file L root known fuel active s u = Ok (s', Some x)
      else get_file L root known fuel active s u = Ok (s', None).
  Proof.
    intros fuel active s u F P (x & PX). unfold get_file. destruct (known u) eqn:K; [|exists s; auto]. destruct (docs s u) as [y|] eqn:D.
    - exists s. split; [exact F|]. split; [reflexivity|]. exists y. split; [exact (proj2 (proj2 F u y D))|]. cbn [bind]. rewrite D. reflexivity.
    - rewrite (backend_parses _ _ _ (proj1 F u) PX). cbn [bind]. unfold update.
      match goal with |- context [refresh _ _ _ _ _ ?st] => destruct (refresh_ok fuel active st (faithful_put _ _ _ _ F K PX) P) as (s' & R & F' & T & G) end.
      exists s'. split; [exact F'|]. split; [exact T|]. exists x. split; [exact PX|]. rewrite R. cbn [bind]. rewrite (G u x); [reflexivity|]. cbn [docs]. unfold set. rewrite Nat.eqb_refl. reflexivity.
  Qed.

  Lemma characters_after : forall tx ev, (forall u, characters (tx u)) ->
    match ev with Opened _ d | Rewritten _ d => characters d | Changed u i j ins => characters ins | _ => True end -> forall u, characters (after tx ev u).
  Proof.
    intros tx ev C H w. unfold after. destruct ev as [u d|u i j ins|u d|u|u|]; auto; destruct (w =? u); auto.
    unfold characters in *. apply Forall_app. split; [|apply Forall_app; split; [exact H|]].
    - apply Forall_forall. intros c J. specialize (C u). rewrite Forall_forall in C. apply C. rewrite <- (firstn_skipn i). apply in_or_app. auto.
    - apply Forall_forall. intros c J. specialize (C u). rewrite Forall_forall in C. apply C. rewrite <- (firstn_skipn j). apply in_or_app. auto.
  Qed.

  (** Finitely many texts are parsed with the same fuel. *)
  Lemma both_parse : forall d e, characters d -> characters e -> exists x y fuel, forall more, parse_file L (fuel + more) (contents d) = Ok x /\ parse_file L (fuel + more) (contents e) = Ok y.
  Proof.
    intros d e CD CE. destruct (PARSES _ (characters_utf8 _ CD)) as (x & f1 & P1). destruct (PARSES _ (characters_utf8 _ CE)) as (y & f2 & P2).
    exists x, y, (f1 + f2). intros more. split; [rewrite <- Nat.add_assoc; apply P1|]. replace (f1 + f2 + more) with (f2 + (f1 + more)) by lia. apply P2.
  Qed.

  Definition touched (ev : event) : nat := match ev with Opened u _ | Changed u _ _ _ | Rewritten u _ | Closed u | Asked u => u | Switched => 0 end.

  Lemma handle_ok : forall tx ev active rest, (forall u, characters (tx u)) -> plain fine known tx ((ev, active) :: rest) ->
    exists fuel, forall more s, texts s = tx -> faithful (fuel + more) s ->
      exists s', handle L root known (fuel + more) s (ev, active) = Ok s' /\ texts s' = after tx ev /\ faithful (fuel + more) s'.
  Proof.
    intros tx ev active rest C PL. cbn [plain] in PL. destruct PL as (PL & _).
    assert (CA : forall u, characters (after tx ev u)) by (apply characters_after; [exact C|destruct ev; tauto]).
    destruct (both_parse (after tx ev (touched ev)) (after tx ev (match active with Some a => a | None => 0 end)) (CA _) (CA _)) as (x & y & fuel & P).
    exists fuel. intros more s ET F. destruct (P more) as (PX & PY). clear P. set (F0 := fuel + more) in *.
    assert (PA : forall a, active = Some a -> exists z, parse_file L F0 (contents (after tx ev a)) = Ok z) by (intros a ->; exists y; exact PY).
    assert (FIN : forall st, faithful F0 st -> texts st = after tx ev -> exists s', refresh L root known F0 active st = Ok s' /\ texts s' = after tx ev /\ faithful F0 s').
    { intros st FS TS. destruct (refresh_ok F0 active st FS) as (s' & R & F' & T & _); [rewrite TS; exact PA|]. exists s'. rewrite <- TS. auto. }
    unfold handle. cbn [fst snd]. destruct ev as [u d|u i j ins|u d|u|u|]; cbn [touched] in PX.
    - assert (PD : parse_file L F0 (contents d) = Ok x) by (unfold after in PX; rewrite Nat.eqb_refl in PX; exact PX). destruct (known u) eqn:K.
      + rewrite (backend_parses _ _ _ PL PD). cbn [bind]. unfold update. cbn [texts docs]. apply FIN; [|cbn [texts]; rewrite ET; reflexivity].
        apply faithful_text; [exact F|exact PL|]. intros z Z. injection Z as <-. auto.
      + eexists. split; [reflexivity|]. split; [cbn [texts]; rewrite ET; reflexivity|]. apply faithful_other; assumption.
    - destruct PL as ((IJ & JL) & CI & FI).
      assert (PD : parse_file L F0 (contents (changed (tx u) i j ins)) = Ok x) by (unfold after in PX; rewrite Nat.eqb_refl in PX; exact PX).
      assert (CD : characters (changed (tx u) i j ins)) by (specialize (CA u); unfold after in CA; rewrite Nat.eqb_refl in CA; exact CA).
      cbn [docs]. rewrite ET. destruct (known u) eqn:K.
      + destruct (FI eq_refl) as (AS & FN). destruct (docs s u) as [[f inc]|] eqn:D.
        * destruct (proj2 F u _ D) as (_ & PO). rewrite ET in PO. destruct (ROOTED _ _ _ (characters_utf8 _ (C u)) PO) as (_ & TX). cbn [fst] in TX.
          set (a := firstn i (tx u)) in *. set (b := firstn (j - i) (skipn i (tx u))) in *. set (c := skipn j (tx u)).
          assert (EO : tx u = a ++ b ++ c).
          { unfold a, b, c. rewrite <- (firstn_skipn i (tx u)) at 1. f_equal. rewrite <- (firstn_skipn (j - i) (skipn i (tx u))) at 1. f_equal. rewrite skipn_skipn. f_equal. lia. }
          assert (EJ : firstn j (tx u) = a ++ b).
          { unfold a, b. rewrite <- (firstn_skipn i (firstn j (tx u))). rewrite firstn_firstn. replace (min i j) with i by lia. f_equal. rewrite skipn_firstn_comm. reflexivity. }
          unfold ascii_up_to in AS. rewrite EJ in AS. apply Forall_app in AS. destruct AS as (AA & AB). destruct (ascii_lengths _ AA) as (U1 & L1). destruct (ascii_lengths _ AB) as (U2 & L2).
          assert (LA : length a = i) by (unfold a; apply firstn_length_le; lia).
          assert (EN : firstn i (changed (tx u) i j ins) = a).
          { unfold changed. fold a c. rewrite firstn_app, LA, Nat.sub_diag, firstn_O, app_nil_r. rewrite <- LA at 1. apply firstn_all. }
          rewrite EN. rewrite U1, U2, <- L1, <- L2.
          assert (CO : characters (a ++ b ++ c)) by (rewrite <- EO; apply C).
          destruct (one_change a b c ins CO CI) as (ops & E & AP & AC & IU). unfold backend_edit. cbn [fst snd]. rewrite TX, EO. rewrite E. cbn [bind].
          assert (RP : reparse_file L F0 f inc ops = Ok x).
          { apply (EDITS F0 F0 (contents (tx u)) f inc ops (contents (changed (tx u) i j ins)) x); auto; [apply characters_utf8; apply C|]. rewrite EO at 1. rewrite AP. reflexivity. }
          rewrite RP. cbn [bind]. rewrite (proj1 (ROOTED _ _ _ (characters_utf8 _ CD) PD)). cbn [bind]. rewrite <- EO. unfold update. cbn [texts docs].
          apply FIN; [|reflexivity]. rewrite <- ET. apply faithful_text; [exact F|rewrite ET; exact CD|]. rewrite ET. intros z Z. injection Z as <-. auto.
        * unfold update. cbn [texts docs]. apply FIN; [|reflexivity]. rewrite <- ET. apply faithful_text; [exact F|rewrite ET; exact CD|]. intros z Z. discriminate Z.
      + eexists. split; [reflexivity|]. split; [reflexivity|]. rewrite <- ET. apply faithful_other; [exact F|rewrite ET; exact CD|exact K].
    - destruct (known u) eqn:K.
      + unfold update. cbn [texts docs]. apply FIN; [|cbn [texts]; rewrite ET; reflexivity]. apply faithful_text; [exact F|exact PL|]. intros z Z. discriminate Z.
      + eexists. split; [reflexivity|]. split; [cbn [texts]; rewrite ET; reflexivity|]. apply faithful_other; assumption.
    - unfold update. apply FIN; [apply faithful_drop; exact F|exact ET].
    - destruct (get_file_ok F0 active s u F) as (s' & F' & T & G); [rewrite ET; exact PA|rewrite ET; exists x; exact PX|].
      exists s'. split; [|split; [rewrite T, ET; reflexivity|exact F']]. destruct (known u); [destruct G as (z & _ & G)|]; rewrite G; reflexivity.
    - apply FIN; [exact F|exact ET].
  Qed.

  Lemma handle_all_ok : forall evs tx, (forall u, characters (tx u)) -> plain fine known tx evs ->
    exists fuel, forall more s, texts s = tx -> faithful (fuel + more) s ->
      exists s', handle_all L root known (fuel + more) s evs = Ok s' /\ texts s' = current tx evs /\ faithful (fuel + more) s'.
  Proof.
    induction evs as [|[ev active] rest IH]; intros tx C PL.
    - exists 0. intros more s ET F. exists s. split; [reflexivity|]. split; [exact ET|exact F].
    - destruct (handle_ok tx ev active rest C PL) as (f1 & H1). cbn [plain] in PL. destruct PL as (P1 & P2).
      destruct (IH (after tx ev)) as (f2 & H2); [apply characters_after; [exact C|destruct ev; tauto]|exact P2|].
      exists (f1 + f2). intros more s ET F. replace (f1 + f2 + more) with (f1 + (f2 + more)) in * by lia. destruct (H1 (f2 + more) s ET F) as (s1 & E1 & T1 & F1).
      cbn [handle_all]. rewrite E1. cbn [bind]. replace (f1 + (f2 + more)) with (f2 + (f1 + more)) in * by lia. exact (H2 (f1 + more) s1 T1 F1).
  Qed.

  Lemma current_characters : forall evs tx, (forall w, characters (tx w)) -> plain fine known tx evs -> forall w, characters (current tx evs w).
  Proof.
    unfold current. induction evs as [|[ev a] rest IH]; intros tx C PL; [exact C|]. cbn [plain] in PL. destruct PL as (P1 & P2). cbn [map fold_left fst].
    apply IH; [|exact P2]. apply characters_after; [exact C|destruct ev; tauto].
  Qed.

  (** After any events: every file held is the file of the document's text, and so is the file a provider gets. *)
  Lemma session_texts : forall tx evs u active, (forall w, characters (tx w)) -> plain fine known tx evs ->
    exists fuel, forall more, exists s s', handle_all L root known (fuel + more) (mkSession tx (fun _ => None)) evs = Ok s /\
      (forall w x, docs s w = Some x -> parse_file L (fuel + more) (contents (current tx evs w)) = Ok x) /\ texts s' = current tx evs /\
      if known u then exists x, get_file L root known (fuel + more) active s u = Ok (s', Some x) /\ parse_file L (fuel + more) (contents (current tx evs u)) = Ok x
      else get_file L root known (fuel + more) active s u = Ok (s', None).
  Proof.
    intros tx evs u active C PL. destruct (handle_all_ok evs tx C PL) as (f1 & H1). pose proof (current_characters evs tx C PL) as CC.
    destruct (both_parse _ _ (CC u) (CC (match active with Some a => a | None => 0 end))) as (x & y & f2 & P). exists (f1 + f2). intros more.
    destruct (P (f1 + more)) as (PX & PY). replace (f2 + (f1 + more)) with (f1 + f2 + more) in * by lia. destruct (H1 (f2 + more) (mkSession tx (fun _ => None)) eq_refl) as (s & E & T & F).
    { split; [exact C|]. intros w z Z. discriminate Z. }
    replace (f1 + (f2 + more)) with (f1 + f2 + more) in * by lia.
    destruct (get_file_ok (f1 + f2 + more) active s u F) as (s' & _ & T' & G); [rewrite T; intros a ->; exists y; exact PY|rewrite T; exists x; exact PX|].
    exists s, s'. split; [exact E|]. split; [intros w z Z; rewrite <- T; exact (proj2 (proj2 F w z Z))|]. split; [congruence|]. rewrite <- T. destruct (known u); [|exact G]. destruct G as (z & Z & G). exists z. auto.
  Qed.
  Lemma session_ok : forall tx evs u active, (forall w, characters (tx w)) -> plain fine known tx evs ->
    exists fuel, forall more, exists s s', handle_all L root known (fuel + more) (mkSession tx (fun _ => None)) evs = Ok s /\
      (forall w x, docs s w = Some x -> parse_file L (fuel + more) (contents (current tx evs w)) = Ok x) /\
      if known u then exists x, get_file L root known (fuel + more) active s u = Ok (s', Some x) /\ parse_file L (fuel + more) (contents (current tx evs u)) = Ok x
      else get_file L root known (fuel + more) active s u = Ok (s', None).
  Proof.
    intros tx evs u active C PL. destruct (session_texts tx evs u active C PL) as (fuel & H). exists fuel. intros more. destruct (H more) as (s & s' & A & B & _ & D). exists s, s'. auto.
  Qed.
End Session.
