(** The screen shows the answers for the current texts. *)
From Coq Require Import List Arith Bool Lia.
From Verif Require Import Base BaseFacts TextModel TextSpec EditModel LexModel LexSpec TreeModel TreeSpec TreeProofs FileEditSpec GrammarModel ParserModel ConvertModel ReparseModel
  AnalysisModel AnalysisSpec ViewProofs FallEditProofs FallEditModel FallHlSpec PropsComplete SessionModel SessionSpec ClientModel ClientSpec ClientProofs ScreenModel ScreenSpec.
Import ListNotations.
Open Scope list_scope.

Lemma last_cons_default : forall A (l : list A) (a b : A), last (b :: l) a = last l b.
Proof. intros A l. induction l as [|c l IH]; intros a b; [reflexivity|]. change (last (c :: l) a = last (c :: l) b). rewrite !IH. reflexivity. Qed.

Section Screen.
  Variables (L : language) (root : option nat) (known : nat -> bool) (fuel : nat).
  Variable paint : file -> res (list (range * hl_tag)).
  Variable check : nat -> file -> res (list diagnostic).

  Lemma drawing_session : forall evs s s' scr m, handle_all L root known fuel s evs = Ok s' -> exists scr', drawing L root known fuel paint check m (s, scr) evs = Ok (s', scr').
  Proof.
    induction evs as [|ev rest IH]; intros s s' scr m H; cbn [handle_all drawing] in *.
    - injection H as <-. eexists. reflexivity.
    - unfold handle_drawing. cbn [fst snd]. destruct (handle L root known fuel s ev) as [s1| |]; try discriminate H. cbn [bind] in *. exact (IH _ _ _ _ H).
  Qed.

  Definition loaded (active : option nat) (s : session) : Prop := forall a, active = Some a -> known a = true -> docs s a <> None.

  Lemma refresh_loaded : forall active s s', refresh L root known fuel active s = Ok s' -> loaded active s' /\ texts s' = texts s.
  Proof.
    intros active s s' H. unfold refresh in H. destruct active as [a|].
    2:{ injection H as <-. split; [intros a X; discriminate X|reflexivity]. }
    destruct (known a) eqn:K. 2:{ injection H as <-. split; [intros b X; injection X as <-; congruence|reflexivity]. }
    destruct (docs s a) as [x|] eqn:D.
    { injection H as <-. split; [intros b X; injection X as <-; congruence|reflexivity]. }
    destruct (backend_parse L root fuel (contents (texts s a))) as [y| |]; try discriminate H. cbn [bind] in H. injection H as <-. split; [|reflexivity].
    intros b X _. injection X as <-. cbn [docs]. unfold set. rewrite Nat.eqb_refl. discriminate.
  Qed.

  Lemma handle_draws : forall s ev active s', handle L root known fuel s (ev, active) = Ok s' ->
    if draws known s ev then loaded active s' else ev <> Switched /\ docs s' = docs s /\ forall w, known w = true -> texts s' w = texts s w.
  Proof.
    intros s ev active s' H. unfold handle in H. cbn [fst snd] in H. destruct ev as [u d|u i j ins|u d|u|u|]; cbn [draws].
    - destruct (known u) eqn:K.
      + destruct (backend_parse L root fuel (contents d)) as [x| |]; try discriminate H. cbn [bind] in H. exact (proj1 (refresh_loaded _ _ _ H)).
      + injection H as <-. split; [discriminate|]. split; [reflexivity|]. intros w W. cbn [texts]. unfold set. destruct (w =? u) eqn:E; [|reflexivity]. apply Nat.eqb_eq in E. congruence.
    - cbn [docs] in H. destruct (known u) eqn:K.
      + destruct (docs s u) as [x|].
        * match type of H with bind ?e _ = _ => destruct e as [y| |]; try discriminate H end. cbn [bind] in H. exact (proj1 (refresh_loaded _ _ _ H)).
        * exact (proj1 (refresh_loaded _ _ _ H)).
      + injection H as <-. split; [discriminate|]. split; [reflexivity|]. intros w W. cbn [texts]. unfold set. destruct (w =? u) eqn:E; [|reflexivity]. apply Nat.eqb_eq in E. congruence.
    - destruct (known u) eqn:K.
      + exact (proj1 (refresh_loaded _ _ _ H)).
      + injection H as <-. split; [discriminate|]. split; [reflexivity|]. intros w W. cbn [texts]. unfold set. destruct (w =? u) eqn:E; [|reflexivity]. apply Nat.eqb_eq in E. congruence.
    - exact (proj1 (refresh_loaded _ _ _ H)).
    - unfold get_file in H. destruct (known u) eqn:K.
      + destruct (docs s u) as [x|] eqn:D.
        * cbn [bind] in H. injection H as <-. split; [discriminate|]. auto.
        * destruct (backend_parse L root fuel (contents (texts s u))) as [x| |]; try discriminate H. cbn [bind] in H.
          destruct (update L root known fuel active s u (Some x)) as [s1| |] eqn:U; try discriminate H. cbn [bind] in H. injection H as <-. exact (proj1 (refresh_loaded _ _ _ U)).
      + cbn [bind] in H. injection H as <-. split; [discriminate|]. auto.
    - exact (proj1 (refresh_loaded _ _ _ H)).
  Qed.

  (** The answers for file [x] of document [a] are on the screen. *)
  Definition shows (s : session) (scr : screen) (a : nat) (x : entry) (hs : list (range * hl_tag)) : Prop :=
    (forall t, colours scr a t = by_tag (texts s a) hs t) /\
    (exists m, problems scr a = match check m (fst x) with Ok ds => map (to_problem (texts s a)) ds | _ => [] end) /\
    forall w, w <> a -> problems scr w = [].
  Definition right (active : option nat) (s : session) (scr : screen) : Prop :=
    forall a x hs, active = Some a -> known a = true -> docs s a = Some x -> paint (fst x) = Ok hs -> shows s scr a x hs.

  Lemma draw_right : forall m active s scr, right active s (draw known paint check m active s scr).
  Proof.
    intros m active s scr a x hs -> K D P. cbn [draw]. rewrite K, D, P. split; [|split].
    - intros t. cbn [colours]. unfold set. rewrite Nat.eqb_refl. reflexivity.
    - exists m. cbn [problems]. unfold set. rewrite Nat.eqb_refl. reflexivity.
    - intros w W. cbn [problems]. unfold set. apply Nat.eqb_neq in W. rewrite W. reflexivity.
  Qed.

  Lemma drawing_right : forall evs m active s scr s' scr', drawing L root known fuel paint check m (s, scr) evs = Ok (s', scr') -> steady active evs ->
    right active s scr -> ((exists u, docs s u <> None) -> loaded active s) ->
    right (active_after active evs) s' scr' /\ ((loaded active s \/ Exists (fun ev => concerns known (fst ev)) evs) -> loaded (active_after active evs) s').
  Proof.
    induction evs as [|[ev b] rest IH]; intros m active s scr s' scr' H ST R LO.
    - cbn [drawing] in H. injection H as <- <-. split; [exact R|]. intros [X|X]; [exact X|inversion X].
    - cbn [drawing] in H. unfold handle_drawing in H. cbn [fst snd] in H. destruct (handle L root known fuel s (ev, b)) as [s1| |] eqn:E; try discriminate H. cbn [bind] in H.
      destruct ST as (SB & ST). pose proof (handle_draws s ev b s1 E) as HD.
      assert (AA : active_after active ((ev, b) :: rest) = active_after b rest).
      { unfold active_after. cbn [map snd]. apply last_cons_default. }
      rewrite AA. destruct (draws known s ev) eqn:DR.
      + destruct (IH _ _ _ _ _ _ H ST (draw_right m b s1 scr) (fun _ => HD)) as (A & B). split; [exact A|]. intros _. apply B. left. exact HD.
      + destruct HD as (NS & DS & TS). destruct SB as [SB|<-]; [contradiction|].
        assert (LL : loaded active s -> loaded active s1) by (intros X a EA K; rewrite DS; exact (X a EA K)).
        destruct (IH _ _ _ _ _ _ H ST) as (A & B).
        { intros a x hs EA K D P. rewrite DS in D. destruct (R a x hs EA K D P) as (C1 & C2 & C3). unfold shows. rewrite (TS a K). auto. }
        { rewrite DS. intros X. exact (LL (LO X)). }
        split; [exact A|]. intros [X|X]; apply B; [left; exact (LL X)|]. inversion X as [? ? Y|? ? Y]; subst; [|right; exact Y]. left. cbn [fst] in Y. apply LL. apply LO.
        destruct ev as [u d|u i j ins|u d|u|u|]; cbn [concerns draws] in *; try congruence; rewrite Y in DR; try discriminate DR. exists u. destruct (docs s u); [discriminate|discriminate DR].
  Qed.
End Screen.

(** ** Ranges *)

Definition fits (f : file) (r : range) : Prop := rstart r <= rend r /\ rend r <= length (f_text f).

Lemma rng_fits : forall f T n, wf_file f T -> fits f (rng f n).
Proof.
  intros f T n WF. destruct (Nat.lt_ge_cases n (length (f_nodes f))) as [V|V].
  - exact (FallEditProofs.rng_in f T WF n V).
  - apply nth_error_None in V. unfold rng, at_node. rewrite V. split; cbn; lia.
Qed.

Lemma part_fits : forall f T n t c r u, wf_file f T -> In (r, u) (part_mark f n t c) -> fits f r.
Proof.
  intros f T n t c r u WF H. unfold part_mark in H. destruct (kid f t n) as [m|]; [|destruct H]. destruct H as [H|[]]. injection H as <- _. exact (rng_fits f T m WF).
Qed.

Lemma colors_fit : forall f T n ms r t, wf_file f T -> no_error_nodes f -> colors f n ms -> valid f n -> In (r, t) ms -> fits f r.
Proof.
  intros f T n ms r t WF NE (names & NM & ->) V J. apply in_app_or in J. destruct J as [J|J].
  - unfold type_mark in J. destruct (ty f n =? ERROR) eqn:E; [apply Nat.eqb_eq in E; exfalso; exact (NE n (conj V E))|].
    destruct (type_color (ty f n)); [|destruct J]. destruct J as [J|[]]. injection J as <- _. exact (rng_fits f T n WF).
  - destruct NM; try (destruct J; fail); try (exact (part_fits _ _ _ _ _ _ _ WF J)).
    + destruct J as [J|[]]. injection J as <- _. exact (rng_fits f T n WF).
    + rewrite !in_app_iff in J. destruct J as [J|[J|J]]; exact (part_fits _ _ _ _ _ _ _ WF J).
    + rewrite !in_app_iff in J. destruct J as [J|[J|J]]; exact (part_fits _ _ _ _ _ _ _ WF J).
Qed.

Lemma says_fit : forall f T k v ds d, wf_file f T -> says f k v ds -> In d ds -> fits f (d_range d).
Proof.
  intros f T k v ds d WF S J.
  assert (AR : forall n k, In d (arity_error f k n) -> fits f (d_range d)).
  { intros n k0 X. unfold arity_error in X. destruct (length (exprs f n) =? k0); [destruct X|]. destruct X as [<-|[]]. exact (rng_fits f T n WF). }
  assert (AT : forall n m l, (forall e, In e l -> fits f (d_range e)) -> forall e, In e (error_at f n m :: l) -> fits f (d_range e)).
  { intros n m l H e [<-|X]; [exact (rng_fits f T n WF)|exact (H e X)]. }
  destruct k; cbn [says] in S.
  - destruct S as (out & _ & ->). apply in_map_iff in J. destruct J as (n & <- & _). exact (rng_fits f T n WF).
  - destruct S as (out & _ & F). induction F as [|r e out ds (i & _ & ->) F IH]; [destruct J|]. destruct J as [<-|J]; [exact (rng_fits f T i WF)|exact (IH J)].
  - destruct S as (l & _ & _ & U). induction U as [|b c l ds O U IH|b l ds O U IH]; [destruct J| |exact (IH J)]. destruct J as [<-|J]; [exact (rng_fits f T c WF)|exact (IH J)].
  - induction S as [|r i l ds H1 H2 H3 U IH|r l ds H1 U IH]; [destruct J| |exact (IH J)]. destruct J as [<-|J]; [exact (rng_fits f T i WF)|exact (IH J)].
  - destruct S as (o & _ & _ & [(_ & _ & ->)|(_ & ->)]); [|destruct J]. destruct J as [<-|[]]. exact (rng_fits f T n WF).
  - destruct S as (o & _ & C). destruct C; try (exact (AR _ _ J)).
    + apply in_app_or in J. destruct J as [J|[<-|[]]]; [exact (AR _ _ J)|exact (rng_fits f T a WF)].
    + apply repeat_spec in J. subst d. exact (rng_fits f T n WF).
    + destruct (length (params f r) =? length (exprs f n)); [destruct J|]. destruct J as [<-|[]]. exact (rng_fits f T n WF).
    + destruct J as [<-|[]]. exact (rng_fits f T i WF).
  - destruct S as (o & _ & P). destruct P; try (destruct J; fail);
      try (destruct J as [<-|[]]; match goal with |- fits f (d_range (error_at f ?x _)) => exact (rng_fits f T x WF) end).
    destruct (priority_of f x); [|destruct J]. destruct J as [<-|[]]. exact (rng_fits f T i WF).
  - destruct S as (o & _ & _ & ->). destruct J.
  - destruct S as (refs & ts & _ & _ & M). induction M as [|i l t ts ds H M IH|i l ts ds H M IH]; [destruct J|exact (IH J)|]. destruct J as [<-|J]; [exact (rng_fits f T i WF)|exact (IH J)].
Qed.

Lemma same_tag_spec : forall a b, same_tag a b = true <-> a = b.
Proof. intros a b. destruct a, b; cbn; split; intros H; try reflexivity; discriminate H. Qed.

Lemma by_tag_ascii : forall d ms t, ascii_document d -> (forall r u, In (r, u) ms -> rstart r <= rend r /\ rend r <= length (concat d)) -> of_tag ms t (by_tag d ms t).
Proof.
  intros d ms t AS. induction ms as [|[r u] ms IH]; intros B; [reflexivity|]. cbn [of_tag]. unfold by_tag. cbn [filter snd]. destruct (same_tag u t) eqn:E.
  - left. split; [apply same_tag_spec; exact E|]. cbn [map fst]. destruct (B r u (or_introl eq_refl)) as (B1 & B2). eexists. split; [rewrite (range_ascii d r AS B1 B2); reflexivity|].
    apply IH. intros r' u' J. exact (B r' u' (or_intror J)).
  - right. split; [intros X; apply same_tag_spec in X; congruence|]. apply IH. intros r' u' J. exact (B r' u' (or_intror J)).
Qed.

Lemma to_problem_ascii : forall d ds, ascii_document d -> (forall x, In x ds -> rstart (d_range x) <= rend (d_range x) /\ rend (d_range x) <= length (concat d)) -> Forall2 listed ds (map (to_problem d) ds).
Proof.
  intros d ds AS. induction ds as [|x ds IH]; intros B; cbn [map]; constructor.
  - destruct (B x (or_introl eq_refl)) as (B1 & B2). unfold listed, to_problem. rewrite (range_ascii d _ AS B1 B2). reflexivity.
  - apply IH. intros y J. exact (B y (or_intror J)).
Qed.
