(** Proofs about ranges, views and text edits. *)
From Coq Require Import List Arith Bool Lia NArith.
From Verif Require Import Base BaseFacts TextModel EditModel TextSpec.
Import ListNotations.

Ltac btrue :=
  repeat match goal with
  | H : (_ && _) = true |- _ => apply andb_prop in H as [? ?]
  | H : (_ <=? _) = true |- _ => apply Nat.leb_le in H
  | H : (_ <=? _) = false |- _ => apply Nat.leb_gt in H
  | H : (_ <? _) = true |- _ => apply Nat.ltb_lt in H
  | H : (_ <? _) = false |- _ => apply Nat.ltb_ge in H
  | H : (_ =? _) = true |- _ => apply Nat.eqb_eq in H
  | H : (_ =? _) = false |- _ => apply Nat.eqb_neq in H
  | H : negb _ = true |- _ => apply negb_true_iff in H
  | H : negb _ = false |- _ => apply negb_false_iff in H
  end.

(** ** Ranges *)

Lemma from_to_ok : forall a b, a <= b -> from_to a b = Ok (mkRange a b).
Proof. intros a b H. unfold from_to. apply Nat.leb_le in H. now rewrite H. Qed.

Lemma from_to_inv : forall a b r, from_to a b = Ok r -> a <= b /\ r = mkRange a b.
Proof.
  intros a b r H. apply guard_ok in H as [H1 H2]. injection H2 as <-. btrue. auto.
Qed.

Lemma from_len_ok : forall a n, from_len a n = Ok (mkRange a (a + n)).
Proof. intros. apply from_to_ok. lia. Qed.

Lemma range_len_ok : forall r, proper r -> range_len r = Ok (rend r - rstart r).
Proof. intros r H. apply usub_le. exact H. Qed.

Lemma is_subrange_spec : forall r o, proper r -> rstart r < rend r ->
  (is_subrange_of r o = true <-> forall i, in_range r i -> in_range o i).
Proof.
  intros r o P N. unfold is_subrange_of, in_range. split.
  - intros H i Hi. btrue. lia.
  - intros H. apply andb_true_intro. split; apply Nat.leb_le.
    + specialize (H (rstart r)). lia.
    + specialize (H (rend r - 1)). lia.
Qed.

Lemma disjoint_spec : forall r o, rstart r < rend r -> rstart o < rend o ->
  (disjoint r o = true <-> forall i, ~ (in_range r i /\ in_range o i)).
Proof.
  intros r o N M. unfold disjoint, in_range. split.
  - intros H i [A B]. apply orb_prop in H as [H|H]; btrue; lia.
  - intros H. apply orb_true_intro. rewrite !Nat.leb_le.
    destruct (le_lt_dec (rend r) (rstart o)); auto. right.
    specialize (H (Nat.max (rstart r) (rstart o))). lia.
Qed.

Lemma disjoint_sym : forall r o, disjoint r o = disjoint o r.
Proof. intros. unfold disjoint. apply orb_comm. Qed.

Lemma intersects_spec : forall r o, rstart r < rend r -> rstart o < rend o ->
  (intersects r o = true <-> exists i, in_range r i /\ in_range o i).
Proof.
  intros r o N M. unfold intersects. split.
  - intros H. btrue. destruct (le_lt_dec (rend r) (rstart o)) as [L|L].
    + unfold disjoint in H. apply orb_false_iff in H as [H _]. btrue. lia.
    + unfold disjoint in H. apply orb_false_iff in H as [H1 H2]. btrue.
      exists (Nat.max (rstart r) (rstart o)). unfold in_range. lia.
  - intros [i Hi]. apply negb_true_iff. destruct (disjoint r o) eqn:E; auto.
    apply (disjoint_spec r o N M) in Hi; [easy|exact E].
Qed.

Lemma contains_spec : forall r o, contains_offset_nonstrict r o = true <-> rstart r <= o <= rend r.
Proof.
  intros. unfold contains_offset_nonstrict. rewrite andb_true_iff, !Nat.leb_le. lia.
Qed.

Lemma glue_spec : forall r o, proper r -> proper o ->
  (rend r = rstart o ->
     exists g, glue r o = Ok g /\ proper g /\ forall i, in_range g i <-> in_range r i \/ in_range o i) /\
  (rend r <> rstart o -> glue r o = Panic).
Proof.
  intros r o P Q. unfold glue, proper, in_range in *. split.
  - intros E. rewrite E, Nat.eqb_refl. simpl. rewrite from_to_ok by lia.
    eexists. split; [reflexivity|]. simpl. split; [lia|]. intros i. lia.
  - intros E. apply Nat.eqb_neq in E. now rewrite E.
Qed.

Lemma shift_spec : forall r k, proper r ->
  exists s, shift_right r k = Ok s /\ proper s /\ forall i, in_range s (k + i) <-> in_range r i.
Proof.
  intros r k P. unfold shift_right. rewrite range_len_ok by exact P. cbn [bind].
  rewrite from_len_ok. eexists. split; [reflexivity|]. unfold proper, in_range in *. cbn. split; [lia|].
  intros; lia.
Qed.

Lemma range_eqb_spec : forall a b, range_eqb a b = true <-> a = b.
Proof.
  intros [a b] [c d]. unfold range_eqb. cbn. rewrite andb_true_iff, !Nat.eqb_eq. split.
  - intros [-> ->]. reflexivity.
  - intros H. injection H; auto.
Qed.

(** Comparison of non-empty ranges. *)
Lemma range_cmp_spec : forall a b, rstart a < rend a -> rstart b < rend b ->
  match range_cmp a b with
  | Some Lt => forall i j, in_range a i -> in_range b j -> i < j
  | Some Gt => forall i j, in_range a i -> in_range b j -> j < i
  | Some Eq => a = b
  | None => a <> b /\ exists i, in_range a i /\ in_range b i
  end.
Proof.
  intros a b A B. unfold range_cmp.
  destruct (rend a <=? rstart b) eqn:E1; btrue.
  - unfold in_range. intros; lia.
  - destruct (rend b <=? rstart a) eqn:E2; btrue.
    + unfold in_range. intros; lia.
    + destruct (range_eqb a b) eqn:E3.
      * now apply range_eqb_spec.
      * split.
        -- intro H. apply range_eqb_spec in H. congruence.
        -- exists (Nat.max (rstart a) (rstart b)). unfold in_range. lia.
Qed.

Lemma range_cmp_lt_trans : forall a b c, rstart b < rend b ->
  range_cmp a b = Some Lt -> range_cmp b c = Some Lt -> range_cmp a c = Some Lt.
Proof.
  intros a b c B. unfold range_cmp.
  destruct (rend a <=? rstart b) eqn:E1.
  - destruct (rend b <=? rstart c) eqn:E2.
    + intros _ _. btrue. replace (rend a <=? rstart c) with true; auto. symmetry. apply Nat.leb_le. lia.
    + destruct (rend c <=? rstart b); try discriminate. destruct (range_eqb b c); discriminate.
  - destruct (rend b <=? rstart a); try discriminate. destruct (range_eqb a b); discriminate.
Qed.

Lemma range_cmp_flip : forall a b, rstart a < rend a -> rstart b < rend b ->
  range_cmp b a = match range_cmp a b with
                  | Some c => Some (CompOpp c) | None => None end.
Proof.
  intros a b A B. unfold range_cmp.
  destruct (rend a <=? rstart b) eqn:E1, (rend b <=? rstart a) eqn:E2; btrue; try reflexivity; try lia.
  destruct (range_eqb a b) eqn:E3.
  - apply range_eqb_spec in E3. subst. replace (range_eqb b b) with true; auto.
    symmetry. now apply range_eqb_spec.
  - destruct (range_eqb b a) eqn:E4; auto. apply range_eqb_spec in E4. subst.
    assert (range_eqb a a = true) by now apply range_eqb_spec. congruence.
Qed.

(** ** Views *)

Lemma as_text_wf : forall s, wf_text (as_text s).
Proof. intros. unfold wf_text; simpl. lia. Qed.

Lemma as_text_bytes : forall s, bytes_of (as_text s) = s.
Proof. intros. apply sub_full. Qed.

Lemma text_len_ok : forall t, wf_text t -> text_len t = Ok (length (bytes_of t)).
Proof.
  intros t [H1 H2]. unfold text_len, bytes_of. rewrite usub_le by lia.
  rewrite sub_length; auto.
Qed.

Lemma slice_ok : forall t r, wf_text t -> proper r -> rend r <= length (bytes_of t) ->
  exists t', slice t r = Ok t' /\ wf_text t' /\ owned t' = owned t
    /\ trange t' = mkRange (rstart (trange t) + rstart r) (rstart (trange t) + rend r)
    /\ bytes_of t' = sub (rstart r) (rend r) (bytes_of t).
Proof.
  intros t r W P L. pose proof (text_len_ok t W) as TL. unfold slice. rewrite TL. cbn [bind].
  destruct W as [W1 W2]. unfold bytes_of in L. rewrite sub_length in L by auto.
  unfold bytes_of at 1. rewrite sub_length by auto. unfold guard.
  replace (rend r <=? rend (trange t) - rstart (trange t)) with true by (symmetry; apply Nat.leb_le; lia).
  unfold proper in P.
  replace (rstart (trange t) + rstart r <=? rend (trange t)) with true by (symmetry; apply Nat.leb_le; lia).
  rewrite usub_le by exact P. cbn [bind]. rewrite from_to_ok by lia. cbn [bind].
  eexists. split; [reflexivity|]. unfold wf_text, bytes_of. cbn [trange owned rstart rend].
  split; [lia|]. split; [reflexivity|]. split; [f_equal; lia|].
  rewrite sub_sub by lia. f_equal. lia.
Qed.

Lemma slice_inv : forall t r t', wf_text t -> slice t r = Ok t' ->
  proper r /\ rend r <= length (bytes_of t).
Proof.
  intros t r t' W H. unfold slice in H. rewrite text_len_ok in H by exact W. cbn [bind] in H.
  apply guard_ok in H as [H1 H]. apply guard_ok in H as [H2 H].
  apply bind_ok in H as (d & H3 & _). apply usub_ok in H3 as [H3 _]. btrue. auto.
Qed.

Lemma slice_panic_iff : forall t r, wf_text t ->
  (slice t r = Panic <-> ~ (proper r /\ rend r <= length (bytes_of t))).
Proof.
  intros t r W. split.
  - intros H [P L]. destruct (slice_ok t r W P L) as (t' & E & _). congruence.
  - intros H. destruct (slice t r) as [t'| |] eqn:E; auto.
    + exfalso. apply H. eapply slice_inv; eauto.
    + exfalso. unfold slice in E. rewrite text_len_ok in E by exact W. cbn [bind] in E.
      unfold guard, usub, from_to, guard in E.
      repeat match type of E with context [if ?c then _ else _] => destruct c; cbn [bind] in E; try discriminate end.
Qed.

Lemma slice_slice : forall t r1 r2 t1 t2, wf_text t ->
  slice t r1 = Ok t1 -> slice t1 r2 = Ok t2 ->
  slice t (mkRange (rstart r1 + rstart r2) (rstart r1 + rend r2)) = Ok t2.
Proof.
  intros t r1 r2 t1 t2 W E1 E2.
  destruct (slice_inv _ _ _ W E1) as [P1 L1].
  destruct (slice_ok t r1 W P1 L1) as (x & F1 & W1 & O1 & R1 & B1).
  rewrite E1 in F1. injection F1 as <-.
  destruct (slice_inv _ _ _ W1 E2) as [P2 L2].
  destruct (slice_ok t1 r2 W1 P2 L2) as (y & F2 & W2 & O2 & R2 & B2).
  rewrite E2 in F2. injection F2 as <-.
  unfold proper in *. rewrite B1, sub_length in L2 by auto.
  destruct (slice_ok t (mkRange (rstart r1 + rstart r2) (rstart r1 + rend r2))) as (z & F3 & W3 & O3 & R3 & B3);
    [exact W|unfold proper; cbn; lia|cbn; lia|].
  rewrite F3. f_equal. destruct z as [zo zr], t2 as [yo yr]. cbn in *. rewrite R1 in R2. cbn in R2.
  rewrite O3, O2, O1, R3, R2. f_equal. f_equal; lia.
Qed.

Lemma slice_suffix_ok : forall t o, wf_text t -> o <= length (bytes_of t) ->
  exists t', slice_suffix t o = Ok t' /\ wf_text t' /\ bytes_of t' = skipn o (bytes_of t).
Proof.
  intros t o W H. unfold slice_suffix. rewrite text_len_ok by exact W. cbn [bind].
  rewrite from_to_ok by exact H. cbn [bind].
  destruct (slice_ok t (mkRange o (length (bytes_of t)))) as (t' & E & W' & _ & _ & B);
    [exact W|exact H|cbn; lia|].
  exists t'. split; [exact E|]. split; [exact W'|]. rewrite B. cbn. apply sub_to_end.
Qed.

Lemma boundary_spec : forall s i, is_char_boundary s i = true <-> aligned s i.
Proof.
  intros s i. unfold is_char_boundary, aligned.
  destruct (i =? 0) eqn:E0; btrue; [split; auto|].
  destruct (i =? length s) eqn:E1; btrue; [split; auto|].
  destruct (nth_error s i) as [b|] eqn:E2.
  - rewrite negb_true_iff. split.
    + intros H. right; right. eauto.
    + intros [H|[H|(b' & H & H')]]; try congruence; try lia.
  - split; [discriminate|]. intros [H|[H|(b' & H & H')]]; congruence.
Qed.

Lemma str_index_ok : forall s a b, a <= b -> aligned s a -> aligned s b ->
  str_index s (mkRange a b) = Ok (sub a b s).
Proof.
  intros s a b L A B. unfold str_index. cbn. apply Nat.leb_le in L. rewrite L.
  apply boundary_spec in A, B. now rewrite A, B.
Qed.

Lemma as_str_ok : forall t, wf_text t ->
  aligned (owned t) (rstart (trange t)) -> aligned (owned t) (rend (trange t)) ->
  as_str t = Ok (bytes_of t).
Proof.
  intros [o [a b]] [W1 W2] A B. cbn in *. apply str_index_ok; auto.
Qed.

Lemma aligned_le : forall s i, aligned s i -> i <= length s.
Proof.
  intros s i [H|[H|(b & H & _)]]; try lia.
  assert (nth_error s i <> None) by congruence. apply nth_error_Some in H0. lia.
Qed.

(** For a whole buffer, slices between character boundaries can be read back. *)
Lemma slice_as_str : forall s a b, a <= b -> aligned s a -> aligned s b ->
  exists t', slice (as_text s) (mkRange a b) = Ok t' /\ as_str t' = Ok (sub a b s).
Proof.
  intros s a b L A B.
  destruct (slice_ok (as_text s) (mkRange a b)) as (t' & E & W & O & R & Bt);
    [apply as_text_wf|exact L|rewrite as_text_bytes; cbn; now apply aligned_le|].
  exists t'. split; [exact E|]. rewrite as_str_ok; auto.
  - rewrite Bt, as_text_bytes. reflexivity.
  - rewrite O, R. exact A.
  - rewrite O, R. exact B.
Qed.

(** ** Characters and [trim] *)

Lemma chars_cons_char : forall c s, valid_char c ->
  (forall b, hd_error s = Some b -> is_cont b = false) -> chars (c ++ s) = c :: chars s.
Proof.
  intros c s V H. destruct c as [|b r]; [easy|]. destruct V as [V1 V2].
  cbn [app]. clear V1. revert b. induction r as [|x r IH]; intros b.
  - destruct s as [|y s]; [reflexivity|]. cbn. cbn in H. now rewrite (H y eq_refl).
  - inversion V2 as [|? ? V3 V4]; subst. specialize (IH V4 x).
    change (chars (b :: (x :: r) ++ s)) with
      (if is_cont x then match chars (x :: r ++ s) with [] => [[b]] | ch :: q => (b :: ch) :: q end
       else [b] :: chars (x :: r ++ s)).
    rewrite V3, IH. reflexivity.
Qed.

Lemma hd_concat_valid : forall cs b, Forall valid_char cs -> hd_error (concat cs) = Some b -> is_cont b = false.
Proof.
  intros cs b F H. destruct cs as [|c cs]; [discriminate|]. inversion F; subst.
  destruct c as [|x c]; [easy|]. cbn in H. injection H as <-. apply H2.
Qed.

Lemma chars_concat : forall cs, Forall valid_char cs -> chars (concat cs) = cs.
Proof.
  induction cs as [|c cs IH]; intros F; [reflexivity|]. inversion F; subst. cbn [concat].
  rewrite chars_cons_char; auto. { now rewrite IH. }
  intros b Hb. eapply hd_concat_valid; eauto.
Qed.

Lemma aligned_concat : forall pre cs, Forall valid_char (pre ++ cs) ->
  aligned (concat (pre ++ cs)) (length (concat pre)).
Proof.
  intros pre cs F. rewrite concat_app. destruct cs as [|c cs].
  - right; left. rewrite app_length. cbn. lia.
  - right; right. apply Forall_app in F as [_ F]. inversion F; subst.
    destruct c as [|b c]; [easy|]. exists b. split; [|apply H1].
    rewrite nth_error_app2 by lia. rewrite Nat.sub_diag. reflexivity.
Qed.

Lemma find_char_drop : forall ws cs,
  match find_char (fun c => negb (ws c)) cs with
  | Some o => exists pre, cs = pre ++ drop_ws ws cs /\ o = length (concat pre)
  | None => drop_ws ws cs = []
  end.
Proof.
  intros ws. induction cs as [|c cs IH]; [reflexivity|]. cbn [find_char drop_ws].
  destruct (ws c); cbn [negb].
  - destruct (find_char (fun c0 => negb (ws c0)) cs) as [o|]; cbn [option_map].
    + destruct IH as (pre & E & ->). exists (c :: pre). split; [cbn; congruence|].
      cbn [concat]. now rewrite app_length.
    + exact IH.
  - now exists [].
Qed.

Lemma drop_ws_app_last : forall ws l c, ws c = false -> rev (drop_ws ws (c :: l)) = rev l ++ [c].
Proof. intros ws l c H. cbn. rewrite H. reflexivity. Qed.

Lemma drop_ws_none : forall ws l, drop_ws ws l = [] -> Forall (fun c => ws c = true) l.
Proof.
  induction l as [|c l IH]; intros H; [constructor|]. cbn in H. destruct (ws c) eqn:E; [|discriminate].
  constructor; auto.
Qed.

Lemma drop_ws_app : forall ws l m, drop_ws ws (l ++ m) =
  match drop_ws ws l with [] => drop_ws ws m | x => x ++ m end.
Proof.
  intros ws. induction l as [|c l IH]; intros m; [reflexivity|]. cbn. destruct (ws c); [apply IH|]. reflexivity.
Qed.

(** [rfind] finds the last non-whitespace character: everything after it is dropped by the strip. *)
Lemma rfind_char_drop : forall ws cs,
  match rfind_char (fun c => negb (ws c)) cs with
  | Some o => exists a c b, cs = a ++ c :: b /\ o = length (concat a)
                         /\ rev (drop_ws ws (rev cs)) = a ++ [c]
  | None => rev (drop_ws ws (rev cs)) = []
  end.
Proof.
  intros ws. induction cs as [|c cs IH]; [reflexivity|]. cbn [rfind_char rev].
  destruct (rfind_char (fun c0 => negb (ws c0)) cs) as [o|].
  - destruct IH as (a & x & b & E & -> & R). exists (c :: a), x, b.
    split; [cbn; congruence|]. split; [cbn [concat]; now rewrite app_length|].
    rewrite drop_ws_app. destruct (drop_ws ws (rev cs)) as [|y l] eqn:D.
    + cbn in R. destruct a; discriminate.
    + rewrite rev_app_distr. cbn [rev app] in *. rewrite R. reflexivity.
  - destruct (ws c) eqn:W; cbn [negb].
    + rewrite drop_ws_app. destruct (drop_ws ws (rev cs)) as [|y l] eqn:D.
      * cbn. now rewrite W.
      * apply (f_equal (@length _)) in IH. rewrite rev_length in IH. discriminate.
    + exists [], c, cs. split; [reflexivity|]. split; [reflexivity|].
      rewrite drop_ws_app. destruct (drop_ws ws (rev cs)) as [|y l] eqn:D.
      * cbn. rewrite W. reflexivity.
      * apply (f_equal (@length _)) in IH. rewrite rev_length in IH. discriminate.
Qed.

(** [trim] on any view whose bytes are whole characters. *)
Lemma trim_spec : forall ws pre cs post,
  Forall valid_char (pre ++ cs ++ post) ->
  let t := mkText (concat (pre ++ cs ++ post)) (mkRange (length (concat pre)) (length (concat pre) + length (concat cs))) in
  exists t', trim ws t = Ok t' /\ wf_text t' /\ as_str t' = Ok (concat (strip ws cs)).
Proof.
  intros ws pre cs post V t.
  assert (Vcs : Forall valid_char cs).
  { apply Forall_app in V as [_ V]. apply Forall_app in V as [V _]. exact V. }
  assert (W : wf_text t).
  { unfold wf_text, t. cbn. rewrite !concat_app, !app_length. lia. }
  assert (AL : forall a b, cs = a ++ b -> aligned (owned t) (length (concat pre) + length (concat a))).
  { intros a b ->. unfold t. cbn [owned].
    replace (length (concat pre) + length (concat a)) with (length (concat (pre ++ a)))
      by (rewrite concat_app, app_length; lia).
    replace (pre ++ (a ++ b) ++ post) with ((pre ++ a) ++ (b ++ post)) by (rewrite <- !app_assoc; reflexivity).
    apply aligned_concat. rewrite <- !app_assoc in V |- *. exact V. }
  assert (B : bytes_of t = concat cs).
  { unfold bytes_of, t. cbn. unfold sub. rewrite !concat_app.
    replace (length (concat pre) + length (concat cs) - length (concat pre)) with (length (concat cs)) by lia.
    rewrite skipn_app, Nat.sub_diag, skipn_all. cbn.
    rewrite firstn_app, Nat.sub_diag, firstn_all. cbn. apply app_nil_r. }
  assert (S : as_str t = Ok (concat cs)).
  { rewrite <- B. apply as_str_ok; auto.
    - specialize (AL [] cs eq_refl). cbn in AL. rewrite Nat.add_0_r in AL. exact AL.
    - specialize (AL cs []). rewrite app_nil_r in AL. exact (AL eq_refl). }
  unfold trim. rewrite S. cbn [bind]. rewrite chars_concat by exact Vcs.
  set (L := match find_char (fun c => negb (ws c)) cs with Some o => o | None => length (concat cs) end).
  assert (HL : exists a, cs = a ++ drop_ws ws cs /\ L = length (concat a)).
  { pose proof (find_char_drop ws cs) as F. unfold L.
    destruct (find_char _ cs) as [o|]; [exact F|]. exists cs. rewrite F, app_nil_r. auto. }
  destruct HL as (a & Ecs & HL). set (m := drop_ws ws cs) in *.
  assert (Vm : Forall valid_char m). { rewrite Ecs in Vcs. now apply Forall_app in Vcs. }
  assert (Lle : L <= length (concat cs)). { rewrite Ecs, concat_app, app_length. lia. }
  rewrite str_index_ok; [|exact Lle| |right; left; reflexivity].
  2:{ rewrite HL, Ecs. apply aligned_concat. rewrite <- Ecs. exact Vcs. }
  cbn [bind].
  assert (Em : sub L (length (concat cs)) (concat cs) = concat m).
  { rewrite sub_to_end, HL. rewrite Ecs at 1. rewrite concat_app, skipn_app, Nat.sub_diag, skipn_all. reflexivity. }
  rewrite Em, chars_concat by exact Vm.
  pose proof (rfind_char_drop ws m) as RF.
  assert (Fin : forall r q, rev (drop_ws ws (rev m)) = r -> m = r ++ q ->
    exists t', (rg <- from_to L (L + length (concat r)) ;; slice t rg) = Ok t' /\ wf_text t'
      /\ as_str t' = Ok (concat (strip ws cs))).
  { intros r q R Q. rewrite from_to_ok by lia. cbn [bind].
    destruct (slice_ok t (mkRange L (L + length (concat r)))) as (t' & E & W' & O & Rg & Bt);
      [exact W|unfold proper; cbn; lia|rewrite B, Ecs, concat_app, app_length, Q, concat_app, app_length; cbn; lia|].
    exists t'. split; [exact E|]. split; [exact W'|].
    rewrite as_str_ok; auto.
    - rewrite Bt, B. cbn [rstart rend]. unfold strip. fold m. rewrite R.
      f_equal. rewrite Ecs at 1. rewrite Q, !concat_app. unfold sub.
      replace (L + length (concat r) - L) with (length (concat r)) by lia.
      rewrite HL, skipn_app, Nat.sub_diag, skipn_all. cbn.
      rewrite firstn_app, Nat.sub_diag, firstn_all. cbn. apply app_nil_r.
    - rewrite O, Rg. cbn. rewrite HL. apply (AL a m). exact Ecs.
    - rewrite O, Rg. cbn. rewrite HL.
      replace (length (concat pre) + (length (concat a) + length (concat r)))
        with (length (concat pre) + length (concat (a ++ r))) by (rewrite concat_app, app_length; lia).
      apply (AL (a ++ r) q). rewrite <- app_assoc, <- Q. exact Ecs. }
  destruct (rfind_char _ m) as [o|].
  - destruct RF as (x & c & y & Em2 & Ho & R).
    assert (Hal : aligned (concat m) (length (concat x))).
    { rewrite Em2. apply aligned_concat. rewrite <- Em2. exact Vm. }
    rewrite str_index_ok; [|subst o; now apply aligned_le|subst o; exact Hal|right; left; reflexivity].
    cbn [bind].
    assert (E3 : sub o (length (concat m)) (concat m) = concat (c :: y)).
    { rewrite sub_to_end, Ho. rewrite Em2 at 1. rewrite concat_app, skipn_app, Nat.sub_diag, skipn_all. reflexivity. }
    rewrite E3, chars_concat.
    2:{ rewrite Em2 in Vm. now apply Forall_app in Vm. }
    cbn [hd_error unwrap bind].
    replace (o + length c) with (length (concat (x ++ [c])))
      by (rewrite concat_app, app_length; cbn; rewrite app_nil_r; lia).
    apply (Fin (x ++ [c]) y); auto. rewrite <- app_assoc. exact Em2.
  - cbn [bind]. apply (Fin [] m); auto.
Qed.

(** ** Text edits *)

Lemma apply_from_app : forall ops acc t,
  apply_from acc ops t = (r <- apply_from [] ops t ;; Ok (acc ++ r)).
Proof.
  induction ops as [|[r|i] ops IH]; intros acc t; cbn [apply_from bind].
  - now rewrite app_nil_r.
  - destruct (slice t r) as [s| |]; cbn [bind]; auto.
    destruct (as_str s) as [c| |]; cbn [bind]; auto.
    rewrite IH, (IH ([] ++ c)). destruct (apply_from [] ops t); cbn [bind]; auto.
    now rewrite app_assoc.
  - destruct (as_str (as_text i)) as [c| |]; cbn [bind]; auto.
    rewrite IH, (IH ([] ++ c)). destruct (apply_from [] ops t); cbn [bind]; auto.
    now rewrite app_assoc.
Qed.

Lemma as_str_as_text : forall s, as_str (as_text s) = Ok s.
Proof.
  intros s. rewrite as_str_ok; [now rewrite as_text_bytes|apply as_text_wf|left; reflexivity|].
  cbn. right; left; reflexivity.
Qed.

Lemma apply_insert : forall i ops t, apply (Insert i :: ops) t = (r <- apply ops t ;; Ok (i ++ r)).
Proof.
  intros. unfold apply. cbn [apply_from]. rewrite as_str_as_text. cbn [bind app]. apply apply_from_app.
Qed.

Lemma apply_copy : forall a b ops s, a <= b -> aligned s a -> aligned s b ->
  apply (Copy (mkRange a b) :: ops) (as_text s) = (r <- apply ops (as_text s) ;; Ok (sub a b s ++ r)).
Proof.
  intros a b ops s L A B. unfold apply. cbn [apply_from].
  destruct (slice_as_str s a b L A B) as (t' & E & S). rewrite E. cbn [bind]. rewrite S. cbn [bind app].
  apply apply_from_app.
Qed.

Lemma apply_app : forall o1 o2 t, apply (o1 ++ o2) t =
  (a <- apply o1 t ;; b <- apply o2 t ;; Ok (a ++ b)).
Proof.
  intros o1 o2 t. unfold apply. generalize (@nil nat) at 1 2 as acc.
  induction o1 as [|[r|i] o1 IH]; intros acc; cbn [apply_from app].
  - cbn [bind]. apply apply_from_app.
  - destruct (slice t r) as [s| |]; cbn [bind]; auto. destruct (as_str s); cbn [bind]; auto.
  - destruct (as_str (as_text i)); cbn [bind]; auto.
Qed.

(** The builder after [advance_to]. *)
Lemma advance_ok : forall b o, last_offset b <= o ->
  exists segs, advance_to b o = Ok (mkEB (segments b ++ segs) o (eb_text_len b))
    /\ forall s, aligned s (last_offset b) -> aligned s o ->
         apply segs (as_text s) = Ok (sub (last_offset b) o s).
Proof.
  intros [sg lo tl] o H. cbn in *. unfold advance_to. cbn [last_offset].
  destruct (Nat.compare lo o) eqn:E.
  - apply Nat.compare_eq in E. subst. exists []. rewrite app_nil_r. split; [reflexivity|].
    intros. now rewrite sub_empty.
  - unfold copy_up_to. cbn [last_offset]. rewrite usub_le by exact H. cbn [bind].
    unfold copy_len. cbn [last_offset segments eb_text_len]. rewrite from_len_ok. cbn [bind].
    replace (lo + (o - lo)) with o by lia.
    exists [Copy (mkRange lo o)]. split; [reflexivity|]. intros s A B.
    rewrite apply_copy by auto. cbn. now rewrite app_nil_r.
  - apply Nat.compare_gt_iff in E. lia.
Qed.

Lemma advance_panic : forall b o, o < last_offset b -> advance_to b o = Panic.
Proof.
  intros b o H. unfold advance_to. apply Nat.compare_gt_iff in H. now rewrite H.
Qed.

Lemma call_ok : forall b c, last_offset b <= r_from (repl_of_call c) ->
  r_from (repl_of_call c) <= r_to (repl_of_call c) ->
  exists segs, run_call b c = Ok (mkEB (segments b ++ segs) (r_to (repl_of_call c)) (eb_text_len b))
    /\ forall s, aligned s (last_offset b) -> aligned s (r_from (repl_of_call c)) ->
        apply segs (as_text s) = Ok (sub (last_offset b) (r_from (repl_of_call c)) s ++ r_what (repl_of_call c)).
Proof.
  intros b c H1 H2.
  destruct (advance_ok b (r_from (repl_of_call c)) H1) as (sg & E & A).
  destruct c as [o t|r|r t]; cbn [repl_of_call r_from r_to r_what] in *; cbn [run_call].
  - unfold eb_insert. rewrite E. cbn [bind]. unfold insert_. cbn [segments last_offset eb_text_len].
    exists (sg ++ [Insert t]). split; [now rewrite app_assoc|]. intros s S1 S2.
    rewrite apply_app, A by auto. cbn [bind]. rewrite apply_insert. cbn. now rewrite app_nil_r.
  - unfold eb_delete. rewrite E. cbn [bind]. rewrite range_len_ok by exact H2. cbn [bind].
    unfold delete_len. cbn [segments last_offset eb_text_len].
    exists sg. split; [f_equal; f_equal; lia|]. intros s S1 S2. rewrite A by auto. now rewrite app_nil_r.
  - unfold eb_replace. rewrite E. cbn [bind]. rewrite range_len_ok by exact H2. cbn [bind].
    unfold delete_len, insert_. cbn [segments last_offset eb_text_len].
    exists (sg ++ [Insert t]). split; [rewrite app_assoc; f_equal; f_equal; lia|]. intros s S1 S2.
    rewrite apply_app, A by auto. cbn [bind]. rewrite apply_insert. cbn. now rewrite app_nil_r.
Qed.

Lemma calls_ok : forall cs b, ordered (last_offset b) (eb_text_len b) (map repl_of_call cs) ->
  exists segs, (b' <- run_calls b cs ;; eb_build b') = Ok (segments b ++ segs)
   /\ forall s, length s = eb_text_len b -> aligned s (last_offset b) -> repls_aligned s (map repl_of_call cs) ->
       apply segs (as_text s) = Ok (splice (last_offset b) s (map repl_of_call cs)).
Proof.
  induction cs as [|c cs IH]; intros b H; cbn [map ordered run_calls] in *.
  - cbn [bind]. unfold eb_build. destruct (advance_ok b _ H) as (sg & E & A). rewrite E. cbn [bind segments].
    exists sg. split; [reflexivity|]. intros s L S1 _. cbn [splice]. rewrite L. apply A; auto.
    right; left. auto.
  - destruct H as (H1 & H2 & H3). destruct (call_ok b c H1 H2) as (s1 & E1 & A1).
    rewrite E1. cbn [bind].
    destruct (IH (mkEB (segments b ++ s1) (r_to (repl_of_call c)) (eb_text_len b)) H3) as (s2 & E2 & A2).
    rewrite E2. cbn [segments last_offset eb_text_len] in *. exists (s1 ++ s2).
    split; [now rewrite app_assoc|]. intros s L S1 S2. inversion S2 as [|? ? [F1 F2] F3]; subst.
    rewrite apply_app, A1 by auto. cbn [bind]. rewrite A2 by auto. cbn [bind splice].
    now rewrite <- app_assoc.
Qed.

Lemma build_edit_ok : forall s cs,
  ordered 0 (length s) (map repl_of_call cs) -> repls_aligned s (map repl_of_call cs) ->
  exists ops, build_edit (as_text s) cs = Ok ops
    /\ apply ops (as_text s) = Ok (splice 0 s (map repl_of_call cs)).
Proof.
  intros s cs O A. unfold build_edit, eb_new. rewrite text_len_ok by apply as_text_wf.
  rewrite as_text_bytes. cbn [bind].
  destruct (calls_ok cs (mkEB [] 0 (length s)) O) as (ops & E & F).
  rewrite E. exists ops. split; [reflexivity|]. apply F; cbn; auto. left; reflexivity.
Qed.

Lemma calls_panic : forall cs b, ~ ordered (last_offset b) (eb_text_len b) (map repl_of_call cs) ->
  (b' <- run_calls b cs ;; eb_build b') = Panic.
Proof.
  induction cs as [|c cs IH]; intros b H; cbn [map ordered run_calls] in *.
  - cbn [bind]. unfold eb_build. rewrite advance_panic; [reflexivity|lia].
  - destruct (le_lt_dec (last_offset b) (r_from (repl_of_call c))) as [L|L].
    2:{ assert (E : run_call b c = Panic).
        { destruct c; cbn in *; unfold eb_insert, eb_delete, eb_replace; rewrite advance_panic; auto. }
        rewrite E. reflexivity. }
    destruct (le_lt_dec (r_from (repl_of_call c)) (r_to (repl_of_call c))) as [M|M].
    2:{ assert (E : run_call b c = Panic).
        { destruct (advance_ok b _ L) as (sg & E & _).
          destruct c as [o t|r|r t]; cbn [repl_of_call r_from r_to run_call] in *; [lia| |];
            unfold eb_delete, eb_replace; rewrite E; cbn [bind]; unfold range_len, usub;
            apply Nat.leb_gt in M; now rewrite M. }
        rewrite E. reflexivity. }
    destruct (call_ok b c L M) as (s1 & E1 & _). rewrite E1. cbn [bind].
    apply IH. cbn [last_offset eb_text_len]. tauto.
Qed.

Lemma build_edit_panics : forall s cs, ~ ordered 0 (length s) (map repl_of_call cs) ->
  build_edit (as_text s) cs = Panic.
Proof.
  intros s cs H. unfold build_edit, eb_new. rewrite text_len_ok by apply as_text_wf.
  rewrite as_text_bytes. cbn [bind]. apply calls_panic. exact H.
Qed.

(** ** VS Code edits *)

(** Ops whose copies are in order from [pos] and whose last copy ends at [n]. *)
Fixpoint ops_ordered (pos n : nat) (ops : list edit_op) : Prop :=
  match ops with
  | [] => pos = n
  | Copy r :: rest => pos <= rstart r /\ rstart r <= rend r /\ ops_ordered (rend r) n rest
  | Insert _ :: rest => ops_ordered pos n rest
  end.

Definition ops_aligned (s : bytes) (ops : list edit_op) : Prop :=
  Forall (fun o => match o with Copy r => aligned s (rstart r) /\ aligned s (rend r) | Insert _ => True end) ops.

Lemma ops_ordered_le : forall ops pos n, ops_ordered pos n ops -> pos <= n.
Proof.
  induction ops as [|[r|i] ops IH]; cbn; intros pos n H; [lia| |eauto].
  destruct H as (A & B & C). apply IH in C. lia.
Qed.

Lemma splice_sub : forall s p q rs, p <= q ->
  (match rs with [] => q <= length s | r :: _ => q <= r_from r end) ->
  splice p s rs = sub p q s ++ splice q s rs.
Proof.
  intros s p q rs L H. destruct rs as [|r rs]; cbn [splice].
  - rewrite sub_app; auto.
  - rewrite (app_assoc (sub p q s)), sub_app; auto.
Qed.

Lemma ordered_weaken : forall rs p q n, p <= q -> ordered q n rs -> ordered p n rs.
Proof. intros [|r rs] p q n L H; cbn in *; [lia|]. destruct H as (A & B & C). split; [lia|auto]. Qed.

Lemma ordered_head : forall rs q n, ordered q n rs ->
  match rs with [] => q <= n | r :: _ => q <= r_from r end.
Proof. intros [|r rs] q n H; cbn in *; [lia|]. tauto. Qed.

Lemma to_vs_ok : forall s ops pos, ops_ordered pos (length s) ops -> ops_aligned s ops -> aligned s pos ->
  exists es, to_vs_from pos ops = Ok es
    /\ ordered pos (length s) (map repl_of_vs es)
    /\ repls_aligned s (map repl_of_vs es)
    /\ apply ops (as_text s) = Ok (splice pos s (map repl_of_vs es)).
Proof.
  intros s. induction ops as [|[r|i] ops IH]; intros pos H A P.
  - cbn in H. subst pos. exists []. cbn. repeat split; auto; [constructor|]. now rewrite sub_empty.
  - cbn [ops_ordered] in H. destruct H as (H1 & H2 & H3). inversion A as [|? ? A0 A3]; subst. cbn in A0. destruct A0 as [A1 A2].
    destruct (IH (rend r) H3 A3 A2) as (es & E & O & R & Ap).
    assert (AP : apply (Copy r :: ops) (as_text s) =
                 Ok (sub (rstart r) (rend r) s ++ splice (rend r) s (map repl_of_vs es))).
    { destruct r as [a b]. rewrite apply_copy by auto. rewrite Ap. reflexivity. }
    cbn [to_vs_from]. destruct (rstart r =? pos) eqn:Ep; cbn [negb]; btrue.
    + exists es. split; [exact E|]. split; [eapply ordered_weaken; [|exact O]; lia|]. split; [exact R|].
      rewrite AP. f_equal. rewrite <- Ep. symmetry. apply splice_sub; [exact H2|]. eapply ordered_head; eauto.
    + rewrite from_to_ok by lia. cbn [bind]. rewrite E. cbn [bind].
      eexists. split; [reflexivity|]. cbn [map repl_of_vs vs_delete vs_insert rstart rend ordered r_from r_to].
      split. { split; [lia|]. split; [lia|]. eapply ordered_weaken; [|exact O]; lia. }
      split. { constructor; auto. }
      rewrite AP. f_equal. cbn [splice r_from r_what r_to]. rewrite sub_empty. cbn [app].
      symmetry. apply splice_sub; [exact H2|]. eapply ordered_head; eauto.
  - cbn [ops_ordered] in H. inversion A as [|? ? _ A3]; subst.
    destruct (IH pos H A3 P) as (es & E & O & R & Ap).
    cbn [to_vs_from]. rewrite from_len_ok, Nat.add_0_r. cbn [bind]. rewrite E. cbn [bind].
    eexists. split; [reflexivity|]. cbn [map repl_of_vs vs_delete vs_insert rstart rend ordered r_from r_to].
    split; [auto|]. split; [constructor; auto|].
    rewrite apply_insert, Ap. cbn [bind splice r_from r_what r_to]. now rewrite sub_empty.
Qed.

Lemma vs_calls : forall es, map repl_of_call (map (fun e => CReplace (vs_delete e) (vs_insert e)) es) = map repl_of_vs es.
Proof. intros. rewrite map_map. reflexivity. Qed.

Lemma from_vs_ok : forall s es,
  ordered 0 (length s) (map repl_of_vs es) -> repls_aligned s (map repl_of_vs es) ->
  exists ops, from_vs_edits (as_text s) es = Ok ops
    /\ apply ops (as_text s) = Ok (splice 0 s (map repl_of_vs es)).
Proof.
  intros s es O A. unfold from_vs_edits. rewrite <- (vs_calls es). apply build_edit_ok; rewrite vs_calls; auto.
Qed.

Lemma from_vs_panics : forall s es, ~ ordered 0 (length s) (map repl_of_vs es) ->
  from_vs_edits (as_text s) es = Panic.
Proof. intros s es H. apply build_edit_panics. now rewrite vs_calls. Qed.

(** ** Scaling *)

Lemma scale_bound : forall x n, (x <= u32_max -> scale x n <= n)%N.
Proof.
  intros x n H. unfold scale. rewrite <- (N.div_mul n u32_max) at 2 by discriminate.
  apply N.div_le_mono; [discriminate|]. rewrite N.mul_comm. now apply N.mul_le_mono_l.
Qed.

Lemma scale_mono : forall x y n, (x <= y -> scale x n <= scale y n)%N.
Proof.
  intros x y n H. unfold scale. apply N.div_le_mono; [discriminate|]. now apply N.mul_le_mono_r.
Qed.
