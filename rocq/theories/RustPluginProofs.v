(** The Rust plugin works on the file of the current text if the files it holds are up to date. *)
From Coq Require Import List Arith Bool Lia.
From Verif Require Import Base BaseFacts TextModel TextSpec TextProofs EditModel LexModel LexSpec ScanSpec TreeModel TreeSpec FileEditModel FileEditSpec FileEditProofs
  GrammarModel GrammarData ParserModel MonoProofs ConvertModel ReparseModel AnalysisModel AnalysisSpec EditorModel FallEditModel PropsCheck PropsComplete PropsAlways PropsEditor EditorSpec
  RegexModel RegexSpec RegexProofs LexData FallLang PropsRegex PropsRelex SessionModel SessionSpec SessionProofs ClientModel ClientSpec ClientProofs FeatureModel FeatureProofs
  AnalysisSpec ViewProofs IndexModel IndexSpec RustEditModel RustEditSpec RustEditProofs RustLang PropsRustEdit RustPluginModel RustPluginSpec.
Import ListNotations.
Open Scope list_scope.

Definition rust_shipped (U : tables) (err : bytes -> nat) : language := shipped_lang U err rust_rules rust_grammar rust_ws rust_binder.

Lemma parse_more : forall L f f' txt x, f <= f' -> parse_file L f txt = Ok x -> parse_file L f' txt = Ok x.
Proof. intros L f f' txt x LE P. destruct (parse_file_mono L f f' txt LE) as [Q|Q]; congruence. Qed.

Lemma joined_ok : forall sep l, joined sep l (join sep l).
Proof.
  intros sep l. induction l as [|x l IH]; [constructor|]. destruct l as [|y l]; [constructor|]. cbn [join]. constructor. exact IH.
Qed.

Section Rust.
  Variables (U : tables) (err : bytes -> nat) (known : nat -> bool).
  Hypothesis TO : tables_ok U.
  Hypothesis ER : err_ok err.
  Let L := rust_shipped U err.

  Lemma rust_parses : forall txt, utf8 txt -> exists x fuel, forall more, parse_file L (fuel + more) txt = Ok x.
  Proof.
    intros txt US. assert (SH : shipped (l_g L)) by constructor. destruct (C71_shipped _ _ _ _ U longest err lx_rust TO longest_picks ER) as (PG & BL & _ & AL).
    destruct (C28_shipped_parse L txt SH PG) as (f & inc & fuel & H); [intros b r W; apply blank_is; exact (BL b r W)|exact rust_binder_le|intros toks k; exact (AL txt toks k US)|].
    exists (f, inc), fuel. exact H.
  Qed.

  Lemma parsed_rust : forall fuel d x, characters d -> parse_file L fuel (concat d) = Ok x -> rust_file L (concat d) (fst x).
  Proof.
    intros fuel d [f inc] C P. destruct (C71_rust U longest err TO longest_picks ER) as (SR & WC). split; [exact SR|]. split; [exact (WC _ (characters_utf8 _ C))|]. exists fuel, inc. exact P.
  Qed.

  Lemma rust_highlight_ok : forall txt f, rust_file L txt f -> exists hs, rust_highlight f = Ok hs.
  Proof.
    intros txt f G. destruct (rust_facts _ _ _ G) as (T & (ST & _) & _). unfold rust_highlight. destruct (C42_highlight (f_nodes f) T hl_tag HError ERROR [] [] ST) as (l & mss & _ & _ & E). eauto.
  Qed.

  Lemma rust_fetched : forall s u active, up_to_date L known s -> (forall w, characters (texts s w)) -> known u = true ->
    exists fuel, forall more, exists s' f inc, parse_file L (fuel + more) (concat (texts s u)) = Ok (f, inc) /\ texts s' = texts s /\ up_to_date L known s' /\
      rust_fetch L known (fuel + more) active s u = Ok (s', Some (f, inc)).
  Proof.
    intros s u active UP C K. destruct (docs s u) as [[f inc]|] eqn:D.
    { destruct (UP u _ D) as (_ & fuel & P). exists fuel. intros more. exists s, f, inc. split; [exact (parse_more _ _ _ _ _ (Nat.le_add_r _ _) P)|]. split; [reflexivity|]. split; [exact UP|].
      unfold rust_fetch, get_file. rewrite K, D. cbn [bind]. rewrite D. reflexivity. }
    destruct (rust_parses _ (characters_utf8 _ (C u))) as ([f inc] & f1 & P1).
    assert (UP1 : up_to_date L known (mkSession (texts s) (set (docs s) u (@Some SessionModel.entry (f, inc))))).
    { intros w x. cbn [docs texts]. unfold set. destruct (w =? u) eqn:E; [|exact (UP w x)]. apply Nat.eqb_eq in E. subst w. intros X. injection X as <-. split; [exact K|]. exists (f1 + 0). apply P1. }
    destruct active as [a|].
    2:{ exists f1. intros more. exists (mkSession (texts s) (set (docs s) u (@Some SessionModel.entry (f, inc)))), f, inc. split; [apply P1|]. split; [reflexivity|]. split; [exact UP1|].
        unfold rust_fetch, get_file. rewrite K, D. unfold backend_parse. unfold contents. rewrite P1. cbn [bind wrap update refresh docs]. unfold set. rewrite Nat.eqb_refl. reflexivity. }
    destruct (known a) eqn:KA.
    2:{ exists f1. intros more. exists (mkSession (texts s) (set (docs s) u (@Some SessionModel.entry (f, inc)))), f, inc. split; [apply P1|]. split; [reflexivity|]. split; [exact UP1|].
        unfold rust_fetch, get_file. rewrite K, D. unfold backend_parse. unfold contents. rewrite P1. cbn [bind wrap]. unfold update, refresh. rewrite KA. cbn [bind docs]. unfold set. rewrite Nat.eqb_refl. reflexivity. }
    assert (DRAW : forall s0 y, up_to_date L known s0 -> (forall w, characters (texts s0 w)) -> docs s0 a = Some y -> exists hs, rust_highlight (fst y) = Ok hs).
    { intros s0 y UP0 C0 D0. destruct (UP0 a y D0) as (_ & fu & P0). exact (rust_highlight_ok _ _ (parsed_rust _ _ _ (C0 a) P0)). }
    destruct (set (docs s) u (@Some SessionModel.entry (f, inc)) a) as [y|] eqn:DA.
    { exists f1. intros more. exists (mkSession (texts s) (set (docs s) u (@Some SessionModel.entry (f, inc)))), f, inc. split; [apply P1|]. split; [reflexivity|]. split; [exact UP1|].
      unfold rust_fetch, get_file. rewrite K, D. unfold backend_parse. unfold contents. rewrite P1. cbn [bind wrap]. unfold update, refresh. rewrite KA. cbn [docs]. rewrite DA. cbn [bind docs].
      rewrite DA. destruct (DRAW _ y UP1 C DA) as (hs & EH). rewrite EH. cbn [bind]. unfold set. rewrite Nat.eqb_refl. reflexivity. }
    destruct (rust_parses _ (characters_utf8 _ (C a))) as (y & f2 & P2). exists (f1 + f2). intros more.
    set (s' := mkSession (texts s) (set (set (docs s) u (@Some SessionModel.entry (f, inc))) a (Some y))).
    assert (PF : parse_file L (f1 + f2 + more) (concat (texts s u)) = Ok (f, inc)) by (rewrite <- Nat.add_assoc; apply P1).
    assert (PY : parse_file L (f1 + f2 + more) (concat (texts s a)) = Ok y) by (replace (f1 + f2 + more) with (f2 + (f1 + more)) by lia; apply P2).
    assert (UP2 : up_to_date L known s').
    { intros w x. unfold s'. cbn [docs texts]. unfold set at 1. destruct (w =? a) eqn:E; [|exact (UP1 w x)]. apply Nat.eqb_eq in E. subst w. intros X. injection X as <-. split; [exact KA|]. eauto. }
    assert (NE : a <> u) by (intros ->; unfold set in DA; rewrite Nat.eqb_refl in DA; discriminate DA).
    assert (DU : docs s' u = Some (f, inc)). { unfold s'. cbn [docs]. unfold set. replace (u =? a) with false by (symmetry; apply Nat.eqb_neq; congruence). rewrite Nat.eqb_refl. reflexivity. }
    assert (DA' : docs s' a = Some y) by (unfold s'; cbn [docs]; unfold set; rewrite Nat.eqb_refl; reflexivity).
    exists s', f, inc. split; [exact PF|]. split; [reflexivity|]. split; [exact UP2|].
    unfold rust_fetch, get_file. rewrite K, D. unfold backend_parse at 1. unfold contents. rewrite PF. cbn [bind wrap]. unfold update, refresh. rewrite KA. cbn [docs texts]. rewrite DA. unfold backend_parse, contents.
    rewrite PY. cbn [bind wrap]. change (mkSession (texts s) (set (set (docs s) u (@Some SessionModel.entry (f, inc))) a (@Some SessionModel.entry y))) with s'. rewrite DU. cbn [bind]. rewrite DA'. destruct (DRAW s' y UP2 C DA') as (hs & EH). rewrite EH. reflexivity.
  Qed.

  Lemma fetch_other : forall fuel s u active, known u = false -> rust_fetch L known fuel active s u = Ok (s, None).
  Proof. intros fuel s u active K. unfold rust_fetch, get_file. rewrite K. reflexivity. Qed.

  (** ** Sessions *)

  Lemma refresh_up : forall fuel active s s', up_to_date L known s -> refresh L None known fuel active s = Ok s' -> texts s' = texts s /\ up_to_date L known s' /\ forall w x, docs s w = Some x -> docs s' w = Some x.
  Proof.
    intros fuel active s s' UP R. destruct active as [a|]; cbn [refresh] in R; [|injection R as <-; auto]. destruct (known a) eqn:K; [|injection R as <-; auto].
    destruct (docs s a) as [y|] eqn:D; [injection R as <-; auto|]. unfold backend_parse in R. destruct (parse_file L fuel (contents (texts s a))) as [x| |] eqn:P; try discriminate R.
    cbn [bind wrap] in R. injection R as <-. cbn [texts docs]. split; [reflexivity|]. split.
    - intros w z. cbn [docs texts]. unfold set. destruct (w =? a) eqn:E; [|exact (UP w z)]. apply Nat.eqb_eq in E. subst w. intros X. injection X as <-. split; [exact K|]. exists fuel. exact P.
    - intros w z Z. unfold set. destruct (w =? a) eqn:E; [|exact Z]. apply Nat.eqb_eq in E. congruence.
  Qed.

  (** The text of [u] changes, and its file is replaced or dropped. *)
  Lemma update_up : forall fuel active s u d v s', up_to_date L known s -> (forall x, v = Some x -> known u = true /\ exists fuel, parse_file L fuel (concat d) = Ok x) ->
    refresh L None known fuel active (mkSession (set (texts s) u d) (set (docs s) u v)) = Ok s' -> texts s' = set (texts s) u d /\ up_to_date L known s'.
  Proof.
    intros fuel active s u d v s' UP V R.
    assert (UP1 : up_to_date L known (mkSession (set (texts s) u d) (set (docs s) u v))).
    { intros w x. cbn [docs texts]. unfold set. destruct (w =? u) eqn:E; [|exact (UP w x)]. apply Nat.eqb_eq in E. subst w. apply V. }
    destruct (refresh_up _ _ _ _ UP1 R) as (T & UP' & _). auto.
  Qed.

  Lemma text_other : forall s u d, up_to_date L known s -> known u = false -> up_to_date L known (mkSession (set (texts s) u d) (docs s)).
  Proof.
    intros s u d UP K w x. cbn [docs texts]. intros D. destruct (UP w x D) as (KW & P). split; [exact KW|]. unfold set. destruct (w =? u) eqn:E; [|exact P].
    apply Nat.eqb_eq in E. congruence.
  Qed.

  Lemma handle_up : forall fuel s ev s', up_to_date L known s -> reparsed_well L known fuel s [ev] -> handle L None known fuel s ev = Ok s' ->
    texts s' = after (texts s) (fst ev) /\ up_to_date L known s'.
  Proof.
    intros fuel s [ev active] s' UP (RW & _) H. pose proof H as H0. unfold handle in H. cbn [fst snd] in *. destruct ev as [u d|u i j ins|u d|u|u|].
    - destruct (known u) eqn:K; [|injection H as <-; split; [reflexivity|apply text_other; assumption]].
      unfold backend_parse in H. destruct (parse_file L fuel (contents d)) as [x| |] eqn:P; try discriminate H. cbn [bind wrap] in H. unfold update in H. cbn [texts docs] in H.
      apply (update_up _ _ _ _ _ _ _ UP) in H; [exact H|]. intros z Z. injection Z as <-. split; [exact K|]. exists fuel. exact P.
    - destruct (known u) eqn:K; [|injection H as <-; split; [reflexivity|apply text_other; assumption]]. cbn [docs] in H. destruct (docs s u) as [x|] eqn:D.
      + destruct (backend_edit L None fuel x _) as [y| |] eqn:B; try discriminate H. cbn [bind] in H. unfold update in H. cbn [texts docs] in H.
        assert (DY : docs s' u = Some y).
        { clear -H. destruct active as [a|]; cbn [refresh] in H; [|injection H as <-; cbn [docs]; unfold set; rewrite Nat.eqb_refl; reflexivity]. destruct (known a); [|injection H as <-; cbn [docs]; unfold set; rewrite Nat.eqb_refl; reflexivity].
          cbn [docs] in H. destruct (set (docs s) u (Some y) a) as [z|] eqn:Z; [injection H as <-; cbn [docs]; unfold set; rewrite Nat.eqb_refl; reflexivity|].
          destruct (backend_parse _ _ _ _) as [z| |]; try discriminate H. cbn [bind] in H. injection H as <-. cbn [docs]. unfold set in *. destruct (u =? a) eqn:E.
          - apply Nat.eqb_eq in E. subst a. rewrite Nat.eqb_refl in Z. discriminate Z.
          - rewrite Nat.eqb_refl. reflexivity. }
        pose proof (RW x eq_refl eq_refl s' y H0 DY) as PY.
        apply (update_up _ _ _ _ _ _ _ UP) in H; [exact H|]. intros z Z. injection Z as <-. split; [exact K|]. exists fuel. exact PY.
      + unfold update in H. cbn [texts docs] in H. apply (update_up _ _ _ _ _ _ _ UP) in H; [exact H|]. intros z Z. discriminate Z.
    - destruct (known u) eqn:K; [|injection H as <-; split; [reflexivity|apply text_other; assumption]]. unfold update in H. cbn [texts docs] in H.
      apply (update_up _ _ _ _ _ _ _ UP) in H; [exact H|]. intros z Z. discriminate Z.
    - unfold update in H. apply refresh_up in H; [destruct H as (T & UP' & _); split; [exact T|exact UP']|].
      intros w x. cbn [docs texts]. unfold set. destruct (w =? u); [discriminate|exact (UP w x)].
    - destruct (get_file L None known fuel active s u) as [[s1 x]| |] eqn:G; try discriminate H. cbn [bind] in H. injection H as ->. unfold get_file in G.
      destruct (known u) eqn:K; [|injection G as <- _; auto]. destruct (docs s u) as [y|] eqn:D; [cbn [bind] in G; injection G as <- _; auto|].
      unfold backend_parse in G. destruct (parse_file L fuel (contents (texts s u))) as [z| |] eqn:P; try discriminate G. cbn [bind wrap] in G. unfold update in G.
      destruct (refresh _ _ _ _ _ _) as [s2| |] eqn:R; try discriminate G. cbn [bind] in G. injection G as -> _. apply refresh_up in R; [destruct R as (T & UP' & _); split; [exact T|exact UP']|].
      intros w x0. cbn [docs texts]. unfold set. destruct (w =? u) eqn:E; [|exact (UP w x0)]. apply Nat.eqb_eq in E. subst w. intros X. injection X as <-. split; [exact K|]. exists fuel. exact P.
    - destruct (refresh_up _ _ _ _ UP H) as (T & UP' & _). auto.
  Qed.

  Lemma handle_all_up : forall fuel evs s s', up_to_date L known s -> reparsed_well L known fuel s evs -> handle_all L None known fuel s evs = Ok s' ->
    texts s' = current (texts s) evs /\ up_to_date L known s'.
  Proof.
    intros fuel. induction evs as [|ev rest IH]; intros s s' UP RW H; cbn [handle_all] in H; [injection H as <-; auto|].
    destruct (handle L None known fuel s ev) as [s1| |] eqn:E; try discriminate H. cbn [bind] in H. cbn [reparsed_well] in RW. destruct RW as (RW1 & RW2).
    destruct (handle_up fuel s ev s1 UP) as (T1 & UP1); [split; [exact RW1|intros; exact I]|exact E|]. destruct (IH s1 s' UP1 (RW2 _ E) H) as (T & UP'). split; [|exact UP'].
    rewrite T, T1. reflexivity.
  Qed.

  (** Without typing: what is needed by SessionProofs.v *)
  Lemma plain_untyped : forall evs tx, proper_events tx evs -> no_typing known evs -> plain (fun _ => False) known tx evs.
  Proof.
    induction evs as [|[ev a] rest IH]; intros tx P N; [exact I|]. cbn [proper_events plain] in *. destruct P as (P1 & P2). inversion N as [|? ? N1 N2]; subst. cbn [fst] in N1.
    split; [|exact (IH _ P2 N2)]. destruct ev; auto. destruct P1 as (A & B). split; [exact A|]. split; [exact B|]. intros K. congruence.
  Qed.

  Lemma rust_rooted : forall fuel txt x, utf8 txt -> parse_file L fuel txt = Ok x -> wrap None x = Ok x /\ f_text (fst x) = txt.
  Proof.
    intros fuel txt [f inc] US P. split; [reflexivity|]. destruct (C71_rust U longest err TO longest_picks ER) as (SR & WC).
    destruct (rust_facts L txt f) as (_ & _ & TX & _); [|exact TX]. split; [exact SR|]. split; [exact (WC _ US)|]. exists fuel, inc. exact P.
  Qed.

  Lemma untyped_session : forall tx evs, (forall w, characters (tx w)) -> proper_events tx evs -> no_typing known evs ->
    exists fuel, forall more, exists s, handle_all L None known (fuel + more) (mkSession tx (fun _ => None)) evs = Ok s /\ texts s = current tx evs /\ up_to_date L known s.
  Proof.
    intros tx evs C P N.
    destruct (handle_all_ok L None known (fun _ => False) rust_parses rust_rooted ltac:(intros; contradiction) evs tx C (plain_untyped evs tx P N)) as (fuel & H).
    exists fuel. intros more. destruct (H more (mkSession tx (fun _ => None)) eq_refl) as (s & E & T & F); [split; [exact C|intros w z Z; discriminate Z]|].
    exists s. split; [exact E|]. split; [exact T|]. intros w x D. destruct (proj2 F w x D) as (K & PX). split; [exact K|]. exists (fuel + more). exact PX.
  Qed.
End Rust.

(** ** Lines and columns *)

Lemma vs_offset_ok : forall d, ascii_document d -> ~ In 13 (concat d) -> forall off line col, off <= length (concat d) -> line_col (concat d) off line col -> vs_offset d line col = off.
Proof.
  intros d AS. induction AS as [|c d E F IH]; intros CR off line col LE LC; cbn [concat] in *.
  { cbn in LE. cbn [vs_offset]. lia. }
  rewrite app_length, E in LE. destruct c as [|b [|? ?]]; try discriminate E. cbn [app] in LC, CR. specialize (IH (fun J => CR (or_intror J))).
  assert (NB : b <> 13) by (intros ->; apply CR; left; reflexivity). destruct LC as (bf & last & EQ & SH & NI & -> & ->).
  assert (EL : ends_line [b] d <-> b = 10). { unfold ends_line. split; [intros [X|(X & _)]; congruence|intros ->; left; reflexivity]. }
  destruct off as [|off].
  { cbn [firstn] in EQ. symmetry in EQ. apply app_eq_nil in EQ. destruct EQ as (-> & ->). cbn [count_occ vs_offset length Nat.eqb]. rewrite Nat.sub_0_r.
    destruct (in_dec _ _ _); reflexivity. }
  cbn [firstn] in EQ. cbn [vs_offset length Nat.eqb]. assert (LE' : off <= length (concat d)) by lia.
  destruct bf as [|b' bf].
  - cbn [app] in EQ. cbn [count_occ length]. rewrite Nat.sub_0_r. subst last. destruct (in_dec (list_eq_dec Nat.eq_dec) [b] [[10]; [13]]) as [Q|Q].
    { destruct Q as [Q|[Q|[]]]; [|congruence]. injection Q as <-. exfalso. apply NI. left. reflexivity. }
    cbn [Nat.leb]. rewrite Nat.sub_succ, Nat.sub_0_r. cbn [Nat.add]. f_equal. apply (IH off 0 off LE'). exists [], (firstn off (concat d)). cbn [app count_occ length]. rewrite Nat.sub_0_r.
    repeat split; auto. intros J. apply NI. right. exact J.
  - cbn [app] in EQ. injection EQ as <- EQ. cbn [count_occ length]. rewrite Nat.sub_succ.
    assert (SUB : bf = [] \/ exists x, bf = x ++ [10]).
    { destruct SH as [SH|(x & SH)]; [discriminate SH|]. destruct x as [|y x]; [injection SH as _ SH; left; exact SH|]. injection SH as _ SH. right. exists x. exact SH. }
    assert (R : vs_offset d (count_occ Nat.eq_dec bf 10) (off - length bf) = off) by (apply (IH off); [exact LE'|]; exists bf, last; repeat split; auto).
    destruct (Nat.eq_dec b 10) as [Q|Q].
    + subst b. destruct (ends_line_dec [10] d) as [_|N]; [rewrite R; reflexivity|]. exfalso. apply N. left. reflexivity.
    + destruct (count_occ Nat.eq_dec bf 10) as [|l] eqn:CO.
      * exfalso. destruct SUB as [-> |(x & ->)]; [|rewrite count_occ_app in CO; cbn in CO; lia]. destruct SH as [SH|(x & SH)]; [discriminate SH|]. destruct x as [|y [|? ?]]; cbn in SH; congruence.
      * destruct (ends_line_dec [b] d) as [X|_]; [apply EL in X; contradiction|]. rewrite R. reflexivity.
Qed.

(** ** The definitions of the index are those of the outline *)

Lemma defines_entry : forall f T n name p par t, wf_file f T -> defines f T symbol_types RS_IDENT n name -> At T n p par t -> symbol_entry f n = [(name, mkRange p (p + tlen t))].
Proof.
  intros f T n name p par t (ST & LT) (p' & par' & t' & c & pc & parc & tc & A' & IN & (cs & pre & post & NC & -> & HT & NPRE) & AC & ->) A.
  pose proof (proj2 ST _ _ _ _ A) as D. pose proof (proj2 ST _ _ _ _ A') as D'. pose proof (proj2 ST _ _ _ _ AC) as DC.
  assert (ET : t_ty t' = t_ty t). { rewrite D in D'. injection D' as E1. unfold data_of in *. congruence. }
  assert (KD : kids f n = pre ++ c :: post). { rewrite (kids_v f n (at_valid f T (conj ST LT) _ _ _ _ A)) in NC. congruence. }
  assert (TY : forall m tt, SearchSpec.has_type T m tt <-> valid f m /\ ty f m = tt).
  { intros m tt. split.
    - intros (x & y & z & AM & EM). pose proof (proj2 ST _ _ _ _ AM) as DM. split; [exact (at_valid f T (conj ST LT) _ _ _ _ AM)|]. unfold ty, at_node. rewrite DM. exact EM.
    - intros (V & EM). destruct (valid_at f T (conj ST LT) m V) as (x & y & z & AM & DM). exists x, y, z. split; [exact AM|]. unfold ty, at_node in EM. rewrite DM in EM. exact EM. }
  assert (KI : kid f RS_IDENT n = Some c).
  { unfold kid, kids_of. rewrite KD. rewrite filter_app. cbn [filter]. apply TY in HT. destruct HT as (_ & HT). rewrite HT, Nat.eqb_refl.
    assert (Z : filter (fun c => ty f c =? RS_IDENT) pre = []); [|rewrite Z; reflexivity].
    assert (KV : forall x, In x pre -> valid f x). { intros x J. apply (kids_valid f T (conj ST LT) n). rewrite KD. apply in_or_app. auto. }
    clear -NPRE TY KV. induction pre as [|x pre IH]; [reflexivity|]. cbn [filter]. destruct (ty f x =? RS_IDENT) eqn:E.
    - exfalso. apply (NPRE x (or_introl eq_refl)). apply TY. split; [apply KV; left; reflexivity|apply Nat.eqb_eq; exact E].
    - apply IH; [intros y J; apply NPRE; right; exact J|intros y J; apply KV; right; exact J]. }
  assert (TN : ty f n = t_ty t). { unfold ty, at_node. rewrite D. reflexivity. }
  unfold symbol_entry, rs_name. rewrite KI. cbn [option_map]. rewrite TN, <- ET.
  assert (EX : existsb (Nat.eqb (t_ty t')) [RS_FN_DEF; RS_STRUCT_DEF; RS_ENUM_DEF; RS_TYPE_DEF; RS_TRAIT_DEF; RS_MOD_DEF] = true) by (apply existsb_exists; exists (t_ty t'); split; [exact IN|apply Nat.eqb_refl]).
  rewrite EX. unfold str, rng, at_node. rewrite D, DC. reflexivity.
Qed.

Lemma entry_defines : forall f T n name r, wf_file f T -> symbol_entry f n = [(name, r)] -> valid f n /\ defines f T symbol_types RS_IDENT n name.
Proof.
  intros f T n name r WF E. unfold symbol_entry in E. destruct (existsb _ _) eqn:EX; [|discriminate E]. unfold rs_name in E. destruct (kid f RS_IDENT n) as [c|] eqn:KI; cbn [option_map] in E; [|discriminate E].
  injection E as <- _. destruct (kid_in f T WF _ _ _ KI) as (KC & KV & KT). apply existsb_exists in EX. destruct EX as (ty0 & IN & TE). apply Nat.eqb_eq in TE.
  assert (V : valid f n). { destruct (nth_error (f_nodes f) n) as [nd|] eqn:N; [|unfold kids, at_node in KC; rewrite N in KC; destruct KC]. apply nth_error_Some. congruence. }
  split; [exact V|]. destruct (valid_at f T WF n V) as (p & q & t & A & D). destruct (valid_at f T WF c KV) as (pc & qc & tc & AC & DC).
  exists p, q, t, c, pc, qc, tc. split; [exact A|]. split. { unfold ty, at_node in TE. rewrite D in TE. cbn in TE. rewrite TE. exact IN. }
  split; [|split; [exact AC|]].
  - unfold kid, kids_of in KI. assert (X : exists pre post, kids f n = pre ++ c :: post /\ ty f c = RS_IDENT /\ forall x, In x pre -> ty f x <> RS_IDENT).
    { clear -KI. induction (kids f n) as [|x l IH]; [discriminate KI|]. cbn [filter] in KI. destruct (ty f x =? RS_IDENT) eqn:E.
      - injection KI as <-. exists [], l. apply Nat.eqb_eq in E. split; [reflexivity|]. split; [exact E|]. intros y [].
      - destruct (IH KI) as (pre & post & -> & TC & N). exists (x :: pre), post. apply Nat.eqb_neq in E. split; [reflexivity|]. split; [exact TC|]. intros y [<-|J]; auto. }
    destruct X as (pre & post & KD & TC & N). exists (pre ++ c :: post), pre, post. split; [rewrite <- KD; apply (kids_v f n V)|]. split; [reflexivity|]. split.
    + exists pc, qc, tc. split; [exact AC|]. unfold ty, at_node in TC. rewrite DC in TC. exact TC.
    + intros x J (px & qx & tx & AX & TX). apply (N x J). unfold ty, at_node. rewrite (proj2 (proj1 WF) _ _ _ _ AX). exact TX.
  - unfold str, rng, at_node. rewrite DC. reflexivity.
Qed.

(** ** Edits *)

Lemma rust_action_edit : forall f ws r id ops, rust_apply_context_action f ws r id = Ok (Some ops) -> exists e, into_text_edit f e = Ok ops.
Proof.
  intros f ws r id ops H. unfold rust_apply_context_action in H.
  assert (SW : forall o b a, swap f ws o b = Ok (Some a) -> forall ops, into_edit a = Ok ops -> exists e, into_text_edit f e = Ok ops).
  { intros o b a X ops0 Y. unfold swap in X. made X Y. }
  assert (AB : forall o b a, add_use_braces f o b = Ok (Some a) -> forall ops, into_edit a = Ok ops -> exists e, into_text_edit f e = Ok ops).
  { intros o b a X ops0 Y. unfold add_use_braces in X. made X Y. }
  assert (AI : forall o b a, add_impl f o b = Ok (Some a) -> forall ops, into_edit a = Ok ops -> exists e, into_text_edit f e = Ok ops).
  { assert (AF : forall k o b a, add_impl_for f k o b = Ok (Some a) -> forall ops, into_edit a = Ok ops -> exists e, into_text_edit f e = Ok ops).
    { intros k o b a X ops0 Y. unfold add_impl_for in X. made X Y. }
    intros o b a X ops0 Y. unfold add_impl in X. destruct (add_impl_for f RS_STRUCT_DEF o b) as [[a'|]| |] eqn:E; try discriminate X; cbn [bind] in X.
    - injection X as ->. exact (AF _ _ _ _ E _ Y).
    - exact (AF _ _ _ _ X _ Y). }
  unfold apply_default_context_action, apply_action, default_actions, rust_actions in H. cbn [find_first fst] in H.
  destruct (bytes_eqb swap_id id).
  { destruct (swap f ws (rstart r) true) as [[a|]| |] eqn:E; try discriminate H; cbn [bind] in H; try discriminate H.
    destruct (into_edit a) as [e| |] eqn:EI; try discriminate H. cbn [bind] in H. injection H as <-. exact (SW _ _ _ E _ EI). }
  cbn [bind] in H. destruct (bytes_eqb add_braces_id id).
  { destruct (add_use_braces f (rstart r) true) as [[a|]| |] eqn:E; try discriminate H; cbn [bind] in H; try discriminate H.
    destruct (into_edit a) as [e| |] eqn:EI; try discriminate H. cbn [bind] in H. injection H as <-. exact (AB _ _ _ E _ EI). }
  destruct (bytes_eqb add_impl_id id); [|discriminate H].
  destruct (add_impl f (rstart r) true) as [[a|]| |] eqn:E; try discriminate H; cbn [bind] in H; try discriminate H.
  destruct (into_edit a) as [e| |] eqn:EI; try discriminate H. cbn [bind] in H. injection H as <-. exact (AI _ _ _ E _ EI).
Qed.

Lemma expand_edit : forall f o ops, expand f o = Ok (Some ops) -> exists e, into_text_edit f e = Ok ops.
Proof. intros f o ops H. unfold expand in H. through H. injection H as <-. eexists. eassumption. Qed.

(** An edit of the tree, as the editor makes it. *)
Lemma tree_client : forall d f T e ops out, ascii_document d -> f_text f = concat d -> wf_file f T -> char_tree (f_text f) T ->
  into_text_edit f e = Ok ops -> apply ops (as_text (concat d)) = Ok out -> exists js, edits_of d ops = Ok js /\ after_edits d js = out.
Proof.
  intros d f T e ops out AS TX WF CT IT AP. destruct (file_edit_ok f T e WF CT) as (ops' & IT' & _ & O & A).
  assert (ops' = ops) by congruence. subst ops'. rewrite TX in O, A. destruct (client_ok d ops AS O A) as (js & EJ & AJ). exists js. split; [exact EJ|]. unfold contents in AJ. congruence.
Qed.

Lemma ascii_aligned : forall d o, ascii_document d -> characters d -> o <= length (concat d) -> aligned (concat d) o.
Proof.
  intros d o AS C LE. unfold aligned. right. destruct (Nat.eq_dec o (length (concat d))) as [->|NE]; [left; reflexivity|right].
  destruct (nth_error (concat d) o) as [b|] eqn:N; [|apply nth_error_None in N; lia]. exists b. split; [reflexivity|].
  assert (J : In b (concat d)) by (eapply nth_error_In; exact N). apply in_concat in J. destruct J as (c & J1 & J2).
  unfold ascii_document in AS. rewrite Forall_forall in AS. pose proof (AS c J1) as E. unfold characters in C. rewrite Forall_forall in C. destruct (C c J1) as (V & A).
  destruct c as [|x [|? ?]]; try discriminate E. destruct J2 as [<-|[]]. exact (proj1 V).
Qed.

Lemma Forall2_nth : forall A B (R : A -> B -> Prop) l m, Forall2 R l m -> forall i a b, nth_error l i = Some a -> nth_error m i = Some b -> R a b.
Proof.
  intros A B R l m F. induction F as [|x y l m H F IH]; intros [|i] a b E1 E2; try discriminate E1; cbn [nth_error] in *; [congruence|exact (IH i a b E1 E2)].
Qed.

(** ** Colours *)

Lemma marks_errors : forall f T, wf_file f T -> exists hs, rust_highlight f = Ok hs /\
  forall r g, In (r, g) hs <-> g = HError /\ exists n, is_a f ERROR n /\ r = mkRange (rstart (rng f n)) (rstart (rng f n) + Nat.max 1 (rend (rng f n) - rstart (rng f n))).
Proof.
  intros f T WF. pose proof WF as (ST & LT). destruct (C42_highlight (f_nodes f) T hl_tag HError ERROR [] [] ST) as (l & mss & _ & F & E). exists (concat mss). split; [exact E|]. intros r g. split.
  - intros J. apply in_concat in J. destruct J as (ms & J1 & J2).
    assert (X : exists n, node_marks (f_nodes f) T HError ERROR [] [] n ms). { clear -F J1. induction F as [|n m l mss H F IH]; [destruct J1|]. destruct J1 as [<-|J1]; [exists n; exact H|exact (IH J1)]. }
    destruct X as (n & own & mss' & OW & CB & ->). inversion CB; subst. cbn [concat] in J2. rewrite app_nil_r in J2. inversion OW as [p par t A TY PO EQ|p par t A TY ZE EQ|p par t g0 A TY MP EQ|p par t A TY NM EQ]; subst own.
    + destruct J2 as [J2|[]]. injection J2 as <- <-. split; [reflexivity|]. exists n. pose proof (proj2 ST _ _ _ _ A) as D. split; [split; [exact (at_valid f T WF _ _ _ _ A)|unfold ty, at_node; rewrite D; exact TY]|].
      unfold rng, at_node. rewrite D. cbn [n_range data_of rstart rend]. replace (p + tlen t - p) with (tlen t) by lia. replace (Nat.max 1 (tlen t)) with (tlen t) by lia. reflexivity.
    + destruct J2 as [J2|[]]. injection J2 as <- <-. split; [reflexivity|]. exists n. pose proof (proj2 ST _ _ _ _ A) as D. split; [split; [exact (at_valid f T WF _ _ _ _ A)|unfold ty, at_node; rewrite D; exact TY]|].
      unfold rng, at_node. rewrite D. cbn [n_range data_of rstart rend]. replace (p + tlen t - p) with (tlen t) by lia. rewrite ZE. reflexivity.
    + exfalso. clear -MP. unfold mapped in MP. decompose [ex and] MP. match goal with H : [] = _ ++ _ |- _ => symmetry in H; apply app_eq_nil in H; destruct H; discriminate end.
    + destruct J2.
  - intros (-> & n & (V & TY) & ->). destruct (valid_at f T WF n V) as (p & q & t & A & D). unfold ty, at_node in TY. rewrite D in TY. cbn in TY.
    pose proof (C42_errors_marked (f_nodes f) T hl_tag HError ERROR [] [] (concat mss) n p q t ST E A TY) as J. unfold rng, at_node. rewrite D. cbn [n_range data_of rstart rend]. replace (p + tlen t - p) with (tlen t) by lia. exact J.
Qed.
