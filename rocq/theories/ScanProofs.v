(** Proofs about the scanners. *)
From Coq Require Import List Arith Bool Lia Sorted.
From Verif Require Import Base BaseFacts TextModel TextSpec ScanModel ScanSpec.
Import ListNotations.

Lemma occurs_prefix : forall n s i, occurs n s i <-> i <= length s /\ is_prefix n (skipn i s) = true.
Proof.
  intros n s i. split.
  - intros (a & b & -> & <-). split; [rewrite app_length; lia|]. apply is_prefix_spec. exists b.
    rewrite skipn_app, skipn_all, Nat.sub_diag. reflexivity.
  - intros (L & H). apply is_prefix_spec in H. destruct H as (r & H). exists (firstn i s), r. split.
    + rewrite <- H. symmetry. apply firstn_skipn.
    + apply firstn_length_le. exact L.
Qed.

Lemma find_sub_occurs : forall n s i, find_sub n s = Some i <-> first_at n s i.
Proof.
  intros n s i. split.
  - intros H. apply find_sub_some in H. destruct H as (L & P & F). split; [apply occurs_prefix; split; assumption|].
    intros j J O. apply occurs_prefix in O. rewrite (F j J) in O. destruct O as (_ & O). discriminate O.
  - intros (O & F). apply occurs_prefix in O. destruct O as (L & P). apply find_sub_first; [exact L|exact P|].
    intros j J. destruct (is_prefix n (skipn j s)) eqn:E; [|reflexivity]. exfalso. apply (F j J). apply occurs_prefix.
    split; [lia|exact E].
Qed.

Lemma find_sub_never : forall n s, find_sub n s = None <-> forall j, ~ occurs n s j.
Proof.
  intros n s. split.
  - intros H j O. apply occurs_prefix in O. destruct O as (L & P). rewrite (find_sub_none _ _ H j L) in P. discriminate P.
  - intros H. destruct (find_sub n s) as [i|] eqn:E; [|reflexivity]. exfalso. apply find_sub_occurs in E.
    exact (H i (proj1 E)).
Qed.

Lemma app_split : forall (a b c d : bytes), a ++ b = c ++ d -> length c <= length a -> exists m, a = c ++ m /\ d = m ++ b.
Proof.
  intros a b c d. revert a. induction c as [|x c IH]; intros a E L; [exists a; split; [reflexivity|symmetry; exact E]|].
  destruct a as [|y a]; [cbn in L; lia|]. cbn in E. injection E as -> E. cbn in L. destruct (IH a E ltac:(lia)) as (m & -> & ->).
  exists m. split; reflexivity.
Qed.

(** ** Characters *)

Lemma utf8_nil : utf8 [].
Proof. exists []. split; [constructor|reflexivity]. Qed.

Lemma utf8_head : forall s b, utf8 s -> hd_error s = Some b -> is_cont b = false.
Proof.
  intros s b ([|c cs] & F & ->) H; [discriminate H|]. inversion F as [|? ? U F']; subst. destruct U as (V & _).
  destruct c as [|x r]; [destruct V|]. cbn in H. injection H as ->. apply V.
Qed.

Lemma cont_ge : forall b, is_cont b = true -> 128 <= b.
Proof. intros b H. unfold is_cont in H. apply andb_true_iff in H. apply Nat.leb_le, H. Qed.

(** After an ASCII byte (which is a character of its own) the rest is valid again. *)
Lemma utf8_ascii : forall a b s, utf8 (a ++ b :: s) -> b < 128 -> utf8 s.
Proof.
  intros a b s (cs & F & E) L. revert a E. induction cs as [|c cs IH]; intros a E.
  - destruct a; discriminate E.
  - inversion F as [|? ? U F']; subst. specialize (IH F'). destruct U as (V & A). cbn [concat] in E.
    destruct (le_lt_dec (length c) (length a)) as [LC|LC].
    + destruct (app_split _ _ _ _ E LC) as (m & -> & E'). apply (IH m). symmetry. exact E'.
    + assert (X : nth_error (c ++ concat cs) (length a) = Some b).
      { rewrite <- E. rewrite nth_error_app2, Nat.sub_diag by lia. reflexivity. }
      rewrite nth_error_app1 in X by exact LC. destruct c as [|x r]; [destruct V|]. destruct a as [|y a].
      * cbn in X. injection X as ->. specialize (A b eq_refl). unfold char_len in A. rewrite (proj2 (Nat.ltb_lt _ _) L) in A.
        destruct r; [|discriminate A]. cbn in E. injection E as ->. exists cs.
        split; [exact F'|reflexivity].
      * exfalso. cbn in X. destruct V as (_ & V). rewrite Forall_forall in V. apply nth_error_In in X. apply V in X.
        apply cont_ge in X. lia.
Qed.

Lemma utf8_ascii_app : forall a n s, utf8 (a ++ n ++ s) -> n <> [] -> Forall (fun b => b < 128) n -> utf8 s.
Proof.
  intros a n s U N F. destruct (exists_last N) as (n' & b & ->). apply Forall_app in F. destruct F as (_ & F).
  inversion F; subst. apply (utf8_ascii (a ++ n') b). { rewrite <- !app_assoc in *. exact U. } assumption.
Qed.

Lemma boundary_at : forall a s, utf8 s -> is_char_boundary (a ++ s) (length a) = true.
Proof.
  intros a s U. unfold is_char_boundary. destruct (length a =? 0) eqn:E; [reflexivity|].
  destruct (length a =? length (a ++ s)) eqn:E'; [reflexivity|]. apply Nat.eqb_neq in E'. rewrite app_length in E'.
  rewrite nth_error_app2, Nat.sub_diag by lia. destruct s as [|b s]; [cbn in E'; lia|]. cbn [nth_error].
  rewrite (utf8_head (b :: s) b U eq_refl). reflexivity.
Qed.

Lemma boundary_end : forall s, is_char_boundary s (length s) = true.
Proof. intros s. unfold is_char_boundary. destruct (length s =? 0); [reflexivity|]. rewrite Nat.eqb_refl. reflexivity. Qed.

Lemma suffix_ok : forall a s, utf8 s -> suffix (a ++ s) (length a) = Ok s.
Proof.
  intros a s U. unfold suffix, str_index. cbn [rstart rend].
  assert (L : length a <=? length (a ++ s) = true) by (rewrite app_length; apply Nat.leb_le; lia).
  rewrite L. cbn [guard]. rewrite (boundary_at a s U), boundary_end. cbn [guard andb]. f_equal. unfold sub.
  rewrite skipn_app, skipn_all, Nat.sub_diag. cbn [app skipn]. rewrite app_length.
  replace (length a + length s - length a) with (length s) by lia. apply firstn_all.
Qed.

Lemma upto_ok : forall a s, utf8 s -> upto (a ++ s) (length a) = Ok a.
Proof.
  intros a s U. unfold upto, str_index. cbn [rstart rend Nat.leb guard].
  rewrite (boundary_at a s U). change (is_char_boundary (a ++ s) 0) with true. cbn [guard andb]. f_equal. unfold sub.
  cbn [skipn]. rewrite Nat.sub_0_r, firstn_app, firstn_all, Nat.sub_diag. apply app_nil_r.
Qed.

(** ** Raw strings *)
Lemma find_quote : forall n rest, find_sub [34] (opening n ++ rest) = Some (S n).
Proof.
  intros n rest. unfold opening. cbn [app find_sub is_prefix Nat.eqb andb].
  assert (H : find_sub [34] ((repeat 35 n ++ [34]) ++ rest) = Some n).
  { induction n as [|n IH]; [reflexivity|]. cbn [repeat app find_sub is_prefix Nat.eqb andb]. rewrite IH. reflexivity. }
  rewrite H. reflexivity.
Qed.

Lemma ascii_utf8 : forall s, Forall (fun b => b < 128) s -> utf8 s.
Proof.
  intros s F. exists (map (fun b => [b]) s). split.
  - apply Forall_forall. intros c J. apply in_map_iff in J. destruct J as (b & <- & J). rewrite Forall_forall in F. specialize (F b J).
    split; [split; [|constructor]|intros x E; injection E as <-; unfold char_len; rewrite (proj2 (Nat.ltb_lt _ _) F); reflexivity].
    unfold is_cont. apply andb_false_iff. left. apply Nat.leb_gt. exact F.
  - induction s as [|b s IH]; [reflexivity|]. cbn. f_equal. apply IH. inversion F; assumption.
Qed.

Lemma hashes_ascii : forall n, Forall (fun b => b < 128) (repeat 35 n).
Proof. intros n. apply Forall_forall. intros x J. apply repeat_spec in J. subst x. lia. Qed.

Lemma hashes_upto : forall n m, n <= m -> upto (34 :: repeat 35 m) (S n) = Ok (closing n).
Proof.
  intros n m L. replace m with (n + (m - n)) by lia. rewrite repeat_app.
  change (34 :: repeat 35 n ++ repeat 35 (m - n)) with (closing n ++ repeat 35 (m - n)).
  replace (S n) with (length (closing n)) by (unfold closing; cbn [length]; rewrite repeat_length; reflexivity).
  apply upto_ok, ascii_utf8, hashes_ascii.
Qed.

Lemma hashes_over : forall n m, m < n -> upto (34 :: repeat 35 m) (S n) = Panic.
Proof.
  intros n m L. unfold upto, str_index. cbn [rstart rend Nat.leb guard].
  assert (B : is_char_boundary (34 :: repeat 35 m) (S n) = false).
  { unfold is_char_boundary. cbn [Nat.eqb length]. rewrite repeat_length.
    assert (X : n =? m = false) by (apply Nat.eqb_neq; lia). rewrite X. cbn [nth_error].
    assert (Y : nth_error (repeat 35 m) n = None) by (apply nth_error_None; rewrite repeat_length; lia). rewrite Y. reflexivity. }
  rewrite B, andb_false_r. reflexivity.
Qed.

Lemma opening_length : forall n, length (opening n) = S n + 1.
Proof. intros n. unfold opening. cbn [length]. rewrite app_length, repeat_length. cbn [length]. lia. Qed.

Lemma opening_utf8 : forall n rest, utf8 (opening n ++ rest) -> utf8 rest.
Proof.
  intros n rest U. apply (utf8_ascii (114 :: repeat 35 n) 34); [|lia]. unfold opening in U. cbn [app] in *.
  rewrite <- app_assoc in U. exact U.
Qed.

Lemma raw_string : forall n rest, utf8 (opening n ++ rest) ->
  parse_raw_string (opening n ++ rest) =
    if n <=? 30 then Ok (option_map (fun i => length (opening n) + i + length (closing n)) (find_sub (closing n) rest)) else Panic.
Proof.
  intros n rest U. unfold parse_raw_string. rewrite find_quote. cbn [unwrap bind]. unfold q_hashes.
  destruct (n <=? 30) eqn:L.
  - apply Nat.leb_le in L. rewrite (hashes_upto n 30 L). cbn [bind]. rewrite <- (opening_length n).
    rewrite (suffix_ok _ _ (opening_utf8 _ _ U)). cbn [bind]. f_equal. destruct (find_sub (closing n) rest) as [i|]; [|reflexivity].
    cbn [option_map]. rewrite (opening_length n). f_equal. lia.
  - apply Nat.leb_gt in L. rewrite (hashes_over n 30 L). reflexivity.
Qed.

(** ** Nested comments *)
Lemma chars_head : forall s b, hd_error s = Some b -> exists r rest,
  hd_error (chars s) = Some (b :: r) /\ s = (b :: r) ++ rest /\ Forall (fun x => is_cont x = true) r /\
  forall x, hd_error rest = Some x -> is_cont x = false.
Proof.
  intros s. induction s as [|b s IH]; intros b0 H; [discriminate H|]. cbn in H. injection H as <-.
  destruct s as [|c s]. { exists [], []. repeat split; [constructor|intros x X; discriminate X]. }
  destruct (IH c eq_refl) as (r & rest & E & ES & F & N).
  change (chars (b :: c :: s)) with (if is_cont c then match chars (c :: s) with [] => [[b]] | ch :: q => (b :: ch) :: q end else [b] :: chars (c :: s)).
  destruct (is_cont c) eqn:C.
  - destruct (chars (c :: s)) as [|ch q] eqn:EC; [discriminate E|]. cbn in E. injection E as ->.
    exists (c :: r), rest. split; [reflexivity|]. split; [cbn; f_equal; exact ES|]. split; [constructor; assumption|exact N].
  - exists [], (c :: s). split; [reflexivity|]. split; [reflexivity|]. split; [constructor|]. intros x X. injection X as <-. exact C.
Qed.

Lemma open_at_le : forall s p d, 2 <= length s -> open_at s p d -> p <= length s.
Proof.
  intros s p d L H. induction H as [|p d _ IH O|p d _ IH O|p d _ IH P _ _]; [exact L| | |lia];
    destruct O as (a & b & E & LA); apply (f_equal (@length nat)) in E; rewrite !app_length in E; cbn [length] in E; lia.
Qed.

Lemma occurs_here : forall n a s, occurs n (a ++ s) (length a) <-> is_prefix n s = true.
Proof.
  intros n a s. rewrite occurs_prefix, app_length, skipn_app, skipn_all, Nat.sub_diag. cbn [app skipn].
  split; [intros (_ & H); exact H|intros H; split; [lia|exact H]].
Qed.

Lemma open_others : forall r a s d, Forall (fun x => is_cont x = true) r -> open_at (a ++ r ++ s) (length a) (S d) ->
  open_at (a ++ r ++ s) (length (a ++ r)) (S d).
Proof.
  intros r. induction r as [|x r IH]; intros a s d F O. { rewrite app_nil_r. exact O. }
  inversion F as [|? ? C F']; subst. apply cont_ge in C.
  replace (a ++ (x :: r) ++ s) with ((a ++ [x]) ++ r ++ s) in * by (rewrite <- !app_assoc; reflexivity).
  replace (a ++ x :: r) with ((a ++ [x]) ++ r) by (rewrite <- app_assoc; reflexivity).
  apply IH; [exact F'|]. rewrite app_length. cbn [length]. apply oa_other; [exact O|rewrite !app_length; cbn [length]; lia| |].
  - intros X. rewrite <- !app_assoc in X. apply occurs_here in X. cbn [app is_prefix] in X.
    apply andb_true_iff in X. destruct X as (X & _). apply Nat.eqb_eq in X. lia.
  - intros X. rewrite <- !app_assoc in X. apply occurs_here in X. cbn [app is_prefix] in X.
    apply andb_true_iff in X. destruct X as (X & _). apply Nat.eqb_eq in X. lia.
Qed.

Lemma utf8_split : forall a s, utf8 (a ++ s) -> (forall x, hd_error s = Some x -> is_cont x = false) -> utf8 s.
Proof.
  intros a s (cs & F & E) N. revert a E. induction cs as [|c cs IH]; intros a E.
  - apply app_eq_nil in E. destruct E as (_ & ->). exact utf8_nil.
  - inversion F as [|? ? U F']; subst. specialize (IH F'). cbn [concat] in E.
    destruct (le_lt_dec (length c) (length a)) as [LC|LC].
    + destruct (app_split _ _ _ _ E LC) as (m & -> & E'). apply (IH m). symmetry. exact E'.
    + destruct a as [|y a]. { cbn in E. rewrite E. exists (c :: cs). split; [exact F|reflexivity]. }
      destruct s as [|b s]; [exact utf8_nil|]. exfalso. specialize (N b eq_refl).
      assert (X : nth_error (c ++ concat cs) (length (y :: a)) = Some b).
      { rewrite <- E. rewrite nth_error_app2, Nat.sub_diag by lia. reflexivity. }
      rewrite nth_error_app1 in X by exact LC. destruct U as (V & _). destruct c as [|z r]; [destruct V|]. cbn in X. destruct V as (_ & V).
      rewrite Forall_forall in V. apply nth_error_In in X. apply V in X. rewrite X in N. discriminate N.
Qed.

Lemma comment_ok : forall fuel a s level, utf8 s -> length s < fuel -> open_at (a ++ s) (length a) level ->
  exists n d, comment_loop fuel s (length a) level = Ok n /\ open_at (a ++ s) n d /\ (d = 0 \/ n = length (a ++ s)).
Proof.
  intros fuel. induction fuel as [|fuel IH]; intros a s level U L O; [lia|]. cbn [comment_loop].
  destruct (length s =? 0) eqn:E0.
  { apply Nat.eqb_eq in E0. destruct s; [|discriminate E0]. exists (length a), level. split; [reflexivity|]. split; [exact O|].
    right. rewrite app_nil_r. reflexivity. }
  destruct level as [|level]. { exists (length a), 0. split; [reflexivity|]. split; [exact O|left; reflexivity]. }
  cbn [orb Nat.eqb]. apply Nat.eqb_neq in E0.
  destruct (is_prefix s_open s) eqn:E1.
  - pose proof (proj2 (occurs_here s_open a s) E1) as OC. apply is_prefix_spec in E1. destruct E1 as (r & ->).
    assert (UR : utf8 r) by (apply (utf8_ascii [47] 42); [exact U|lia]).
    change (suffix (s_open ++ r) 2) with (suffix (s_open ++ r) (length s_open)). rewrite (suffix_ok s_open r UR). cbn [bind].
    rewrite app_length in L. cbn [s_open length] in L.
    replace (length a + 2) with (length (a ++ s_open)) by (rewrite app_length; reflexivity). rewrite app_assoc.
    apply IH; [exact UR|lia|]. rewrite <- app_assoc, app_length. rewrite Nat.add_1_r. apply oa_open; assumption.
  - destruct (is_prefix s_close s) eqn:E2.
    + pose proof (proj2 (occurs_here s_close a s) E2) as OC. apply is_prefix_spec in E2. destruct E2 as (r & ->).
      assert (UR : utf8 r) by (apply (utf8_ascii [42] 47); [exact U|lia]).
      change (suffix (s_close ++ r) 2) with (suffix (s_close ++ r) (length s_close)). rewrite (suffix_ok s_close r UR). cbn [bind].
      rewrite app_length in L. cbn [s_close length] in L. unfold usub. cbn [Nat.leb bind]. rewrite Nat.sub_succ, Nat.sub_0_r.
      replace (length a + 2) with (length (a ++ s_close)) by (rewrite app_length; reflexivity). rewrite app_assoc.
      apply IH; [exact UR|lia|]. rewrite <- app_assoc, app_length. apply oa_close; assumption.
    + destruct s as [|b s]; [cbn in E0; lia|]. destruct (chars_head (b :: s) b eq_refl) as (r & rest & EC & ES & F & N).
      rewrite EC. cbn [unwrap bind]. rewrite ES in *.
      assert (UR : utf8 rest) by exact (utf8_split _ _ U N).
      rewrite (suffix_ok (b :: r) rest UR). cbn [bind]. rewrite <- app_length. rewrite app_assoc. rewrite app_length in L. cbn [length] in L.
      apply IH; [exact UR|lia|].
      replace (a ++ b :: r) with ((a ++ [b]) ++ r) by (rewrite <- app_assoc; reflexivity). rewrite <- app_assoc. apply open_others; [exact F|].
      rewrite app_length. cbn [length]. rewrite <- app_assoc. change ([b] ++ r ++ rest) with ((b :: r) ++ rest). apply oa_other; [exact O| | |].
      * rewrite !app_length. cbn [length]. lia.
      * intros X. apply occurs_here in X. change ([47; 42]) with s_open in X. rewrite E1 in X. discriminate X.
      * intros X. apply occurs_here in X. change ([42; 47]) with s_close in X. rewrite E2 in X. discriminate X.
Qed.

(** The number of open comments is determined by the position. *)
Lemma occurs_clash : forall s p, occurs [47; 42] s p -> occurs [42; 47] s p -> False.
Proof.
  intros s p O O'. apply occurs_prefix in O. apply occurs_prefix in O'. destruct O as (_ & O), O' as (_ & O').
  destruct (skipn p s) as [|x l]; [discriminate O|]. cbn [is_prefix] in *. apply andb_true_iff in O. apply andb_true_iff in O'.
  destruct O as (O & _), O' as (O' & _). apply Nat.eqb_eq in O, O'. lia.
Qed.

(** Two readings of the same comment: the shorter one is a stage of the longer one. *)
Inductive steps (s : bytes) : nat * nat -> nat * nat -> Prop :=
| st_refl x : steps s x x
| st_open x p d : steps s x (p, S d) -> occurs [47; 42] s p -> steps s x (p + 2, S (S d))
| st_close x p d : steps s x (p, S d) -> occurs [42; 47] s p -> steps s x (p + 2, d)
| st_other x p d : steps s x (p, S d) -> p < length s -> ~ occurs [47; 42] s p -> ~ occurs [42; 47] s p -> steps s x (p + 1, S d).

Lemma steps_head : forall s x y, steps s x y -> x = y \/ exists p d, x = (p, S d) /\
  ((occurs [47; 42] s p /\ steps s (p + 2, S (S d)) y) \/ (occurs [42; 47] s p /\ steps s (p + 2, d) y)
   \/ (p < length s /\ ~ occurs [47; 42] s p /\ ~ occurs [42; 47] s p /\ steps s (p + 1, S d) y)).
Proof.
  intros s x y H. induction H as [x|x p d H IH O|x p d H IH O|x p d H IH L O C]; [left; reflexivity| | |]; right;
    (destruct IH as [->|(q & e & -> & IH)];
     [exists p, d; split; [reflexivity|]|exists q, e; split; [reflexivity|]]).
  - left. split; [exact O|apply st_refl].
  - destruct IH as [(A & B)|[(A & B)|(A & B & B' & B'')]]; [left|right; left|right; right]; repeat split; try assumption; eapply st_open; eassumption.
  - right. left. split; [exact O|apply st_refl].
  - destruct IH as [(A & B)|[(A & B)|(A & B & B' & B'')]]; [left|right; left|right; right]; repeat split; try assumption; eapply st_close; eassumption.
  - right. right. split; [exact L|]. split; [exact O|]. split; [exact C|apply st_refl].
  - destruct IH as [(A & B)|[(A & B)|(A & B & B' & B'')]]; [left|right; left|right; right]; repeat split; try assumption; eapply st_other; eassumption.
Qed.

Lemma open_linear : forall s p d, open_at s p d -> forall p' d', open_at s p' d' ->
  steps s (p, d) (p', d') \/ steps s (p', d') (p, d).
Proof.
  intros s p d H. induction H as [|p d H IH O|p d H IH O|p d H IH L O C]; intros p' d' H'.
  { left. induction H'; [apply st_refl|eapply st_open|eapply st_close|eapply st_other]; eassumption. }
  all: specialize (IH p' d' H'); destruct IH as [IH|IH];
    [|right; first [eapply st_open; eassumption|eapply st_close; eassumption|eapply st_other; eassumption]].
  all: apply steps_head in IH; destruct IH as [E|(q & e & E & IH)];
    [injection E as <- <-; right; first [apply st_open; [apply st_refl|assumption]|apply st_close; [apply st_refl|assumption]|apply st_other; [apply st_refl|assumption..]]|].
  all: injection E as <- <-; left.
  all: destruct IH as [(A & B)|[(A & B)|(A & B & B' & B'')]]; try assumption; exfalso;
    first [contradiction|exact (occurs_clash _ _ O A)|exact (occurs_clash _ _ A O)].
Qed.

Lemma steps_le : forall s x y, steps s x y -> fst x <= fst y.
Proof. intros s x y H. induction H; cbn [fst] in *; lia. Qed.

(** Reading stops for good when no comment is open. *)
Lemma open_end : forall s n p d, open_at s n 0 -> open_at s p d -> p <= n.
Proof.
  intros s n p d H H'. destruct (open_linear s n 0 H p d H') as [X|X].
  - apply steps_head in X. destruct X as [E|(q & e & E & _)]; [injection E as <- _; lia|discriminate E].
  - apply steps_le in X. exact X.
Qed.

(** ** Markers *)
Lemma unbordered_first : forall c a b, unbordered c -> (forall j, ~ occurs c a j) -> first_at c (a ++ c ++ b) (length a).
Proof.
  intros c a b (NE & U) NA. split; [exists a, b; split; reflexivity|]. intros j J (x & y & E & LX).
  destruct (le_lt_dec (j + length c) (length a)) as [LE|LT].
  - rewrite (app_assoc x c y) in E. destruct (app_split _ _ _ _ E) as (m & EA & _); [rewrite app_length; lia|].
    apply (NA j). exists x, m. split; [rewrite app_assoc; exact EA|exact LX].
  - (* the occurrence at [j] ends inside the caret at [length a] *)
    set (k := length a - j). assert (LK : 0 < k < length c) by (unfold k; lia).
    apply (U (firstn (length c - k) c) (skipn (length c - k) c) (firstn k c)).
    + intros X. apply (f_equal (@length nat)) in X. rewrite firstn_length in X. cbn in X. lia.
    + intros X. apply (f_equal (@length nat)) in X. rewrite skipn_length in X. cbn in X. lia.
    + symmetry. apply firstn_skipn.
    + rewrite <- (firstn_skipn k c) at 1. f_equal.
      apply (f_equal (skipn (length a))) in E. rewrite skipn_app, skipn_all, Nat.sub_diag in E. cbn [app skipn] in E.
      rewrite !skipn_app in E. rewrite (skipn_all2 x) in E by lia. cbn [app] in E. rewrite LX in E. fold k in E.
      replace (k - length c) with 0 in E by lia. cbn [skipn] in E.
      apply (f_equal (firstn (length c - k))) in E. rewrite !firstn_app in E.
      rewrite (firstn_all2 (skipn k c)) in E by (rewrite skipn_length; lia). rewrite skipn_length in E.
      replace (length c - k - length c) with 0 in E by lia. replace (length c - k - (length c - k)) with 0 in E by lia.
      cbn [firstn] in E. rewrite !app_nil_r in E. symmetry. exact E.
Qed.

Lemma app_assoc4 : forall (a b c d : bytes), a ++ b ++ c ++ d = (a ++ b ++ c) ++ d.
Proof. intros. rewrite !app_assoc. reflexivity. Qed.

Lemma extract_offset_at : forall a c b, first_at c (a ++ c ++ b) (length a) -> utf8 (c ++ b) -> utf8 b ->
  extract_offset (a ++ c ++ b) c = Ok (a ++ b, length a).
Proof.
  intros a c b FA U UB. apply find_sub_occurs in FA. unfold extract_offset. rewrite FA. cbn [unwrap bind].
  rewrite (upto_ok a _ U). cbn [bind]. rewrite <- app_length, (app_assoc a c b). rewrite (suffix_ok (a ++ c) b UB). reflexivity.
Qed.

Lemma extract_range_at : forall a c m b, first_at c (a ++ c ++ m ++ c ++ b) (length a) -> first_at c (m ++ c ++ b) (length m) ->
  utf8 (c ++ m ++ c ++ b) -> utf8 (m ++ c ++ b) -> utf8 (c ++ b) -> utf8 b ->
  extract_range (a ++ c ++ m ++ c ++ b) c = Ok (a ++ m ++ b, mkRange (length a) (length a + length m)).
Proof.
  intros a c m b F1 F2 U1 U2 U3 U4. apply find_sub_occurs in F1, F2. unfold extract_range. rewrite F1. cbn [unwrap bind].
  rewrite <- app_length. rewrite (app_assoc a c (m ++ c ++ b)) at 1. rewrite (suffix_ok (a ++ c) _ U2). cbn [bind]. rewrite F2. cbn [unwrap bind].
  rewrite (upto_ok a _ U1). cbn [bind].
  assert (M : str_index (a ++ c ++ m ++ c ++ b) (mkRange (length (a ++ c)) (length (a ++ c) + length m)) = Ok m).
  { unfold str_index. cbn [rstart rend]. rewrite (proj2 (Nat.leb_le _ _)) by lia. cbn [guard].
    rewrite (app_assoc a c (m ++ c ++ b)). rewrite (boundary_at (a ++ c) _ U2). rewrite <- app_length, (app_assoc (a ++ c) m (c ++ b)).
    rewrite (boundary_at ((a ++ c) ++ m) _ U3). cbn [andb guard]. f_equal. unfold sub. rewrite <- (app_assoc (a ++ c) m (c ++ b)).
    rewrite skipn_app, skipn_all, Nat.sub_diag. cbn [app skipn].
    rewrite (app_length (a ++ c) m). replace (length (a ++ c) + length m - length (a ++ c)) with (length m) by lia.
    rewrite firstn_app, firstn_all, Nat.sub_diag. apply app_nil_r. }
  rewrite M. cbn [bind].
  replace (length (a ++ c) + length m + length c) with (length (a ++ c ++ m ++ c)) by (rewrite !app_length; lia).
  replace (a ++ c ++ m ++ c ++ b) with ((a ++ c ++ m ++ c) ++ b) by (rewrite <- !app_assoc; reflexivity).
  rewrite (suffix_ok _ b U4). cbn [bind]. unfold usub.
  rewrite (proj2 (Nat.leb_le _ _)) by (rewrite app_length; lia). cbn [bind].
  rewrite app_length. replace (length a + length c + length m - length c) with (length a + length m) by lia.
  unfold from_to. rewrite (proj2 (Nat.leb_le _ _)) by lia. reflexivity.
Qed.

(** ** Inline tests *)
Definition t_head (n : nat) : bytes := [116; 101; 115; 116; 32] ++ opening n.

Lemma head_split : forall n, t_head n = s_test_r ++ repeat 35 n ++ [34].
Proof. reflexivity. Qed.

Lemma head_length : forall n, length (t_head n) = 7 + n.
Proof. intros n. unfold t_head. rewrite app_length, opening_length. cbn [length]. lia. Qed.

(** The next occurrence of [test r] is after the opening of the raw string. *)
Lemma head_next : forall n g j, occurs s_test_r (t_head n ++ g) j -> j = 0 \/ 7 + n <= j.
Proof.
  intros n g j O. apply occurs_prefix in O. destruct O as (_ & O).
  destruct j as [|[|[|[|[|[|j]]]]]]; [left; reflexivity|discriminate O..|]. right.
  destruct (le_lt_dec (7 + n) (S (S (S (S (S (S j))))))) as [L|L]; [exact L|]. exfalso. rewrite head_split, <- !app_assoc in O.
  change (skipn (S (S (S (S (S (S j)))))) (s_test_r ++ repeat 35 n ++ [34] ++ g)) with (skipn j (repeat 35 n ++ [34] ++ g)) in O.
  assert (LJ : j <= n) by lia. clear L. revert n LJ O. induction j as [|j IH]; intros n LJ O.
  - destruct n; discriminate O.
  - destruct n as [|n]; [lia|]. cbn [repeat app skipn] in O. apply (IH n); [lia|exact O].
Qed.

Lemma hashes_count : forall n g, count_hashes (repeat 35 n ++ [34] ++ g) = n.
Proof. intros n g. induction n as [|n IH]; [reflexivity|]. cbn [repeat app count_hashes]. f_equal. exact IH. Qed.

Definition good_tests (s : bytes) : Prop := forall p, occurs s_test_r s p ->
  exists a n body, n <= 16 /\ s = a ++ t_head n ++ body /\ length a = p.

Lemma occurs_shift : forall c a s j, occurs c s j <-> occurs c (a ++ s) (length a + j).
Proof.
  intros c a s j. rewrite !occurs_prefix, app_length.
  assert (E : skipn (length a + j) (a ++ s) = skipn j s).
  { rewrite skipn_app, skipn_all2 by lia. cbn [app]. f_equal. lia. }
  rewrite E. split; intros (L & P); (split; [lia|exact P]).
Qed.

Lemma app_len_inv : forall (a b c d : bytes), a ++ b = c ++ d -> length a = length c -> a = c /\ b = d.
Proof.
  intros a. induction a as [|x a IH]; intros b [|y c] d E L; try discriminate L; [split; [reflexivity|exact E]|].
  cbn in E. injection E as -> E. cbn in L. destruct (IH b c d E ltac:(lia)) as (-> & ->). split; reflexivity.
Qed.

Lemma collect_ok : forall trim s, good_tests s -> forall fuel a g acc, s = a ++ g -> utf8 g -> length g < fuel ->
  exists ps out, collect_loop trim fuel g acc = Ok (acc ++ out) /\ tests_at trim s ps out
    /\ Sorted.StronglySorted lt ps /\ forall p, In p ps <-> length a <= p /\ occurs s_test_r s p.
Proof.
  intros trim s GOOD fuel. induction fuel as [|fuel IH]; intros a g acc ES U L; [lia|]. cbn [collect_loop].
  destruct (find_sub s_test_r g) as [pos|] eqn:F.
  2:{ pose proof (proj1 (find_sub_never _ _) F) as NEV. exists [], []. rewrite app_nil_r. split; [reflexivity|]. split; [constructor|]. split; [constructor|].
      intros p. split; [intros []|]. intros (LE & O). exfalso. apply (NEV (p - length a)). apply (occurs_shift _ a). rewrite <- ES.
      replace (length a + (p - length a)) with p by lia. exact O. }
  apply find_sub_occurs in F. destruct F as (O & FST).
  assert (OS : occurs s_test_r s (length a + pos)) by (rewrite ES; apply occurs_shift; exact O).
  destruct (GOOD _ OS) as (a' & n & g' & LN & E' & LA'). rewrite ES in E'.
  destruct (app_split a' (t_head n ++ g') a g) as (b & -> & EG); [symmetry; exact E'|lia|]. rewrite app_length in LA'.
  assert (LB : length b = pos) by lia. clear LA' E'. subst g.
  assert (U1 : utf8 (repeat 35 n ++ [34] ++ g')).
  { apply (utf8_ascii (b ++ [116; 101; 115; 116; 32]) 114); [|lia]. rewrite head_split, <- (app_assoc s_test_r), <- (app_assoc (repeat 35 n)) in U. rewrite <- app_assoc. exact U. }
  assert (UG : utf8 g').
  { apply (utf8_ascii (repeat 35 n) 34); [exact U1|lia]. }
  replace (b ++ t_head n ++ g') with ((b ++ s_test_r) ++ repeat 35 n ++ [34] ++ g') in *
    by (rewrite head_split, <- !app_assoc; reflexivity).
  replace (pos + length s_test_r) with (length (b ++ s_test_r)) by (rewrite app_length; lia). rewrite (suffix_ok _ _ U1). cbn [bind].
  rewrite hashes_count. rewrite (app_assoc (repeat 35 n) [34] g').
  replace (n + 1) with (length (repeat 35 n ++ [34])) by (rewrite app_length, repeat_length; reflexivity). rewrite (suffix_ok _ _ UG). cbn [bind].
  replace (1 + n) with (S n) by lia. rewrite (hashes_upto n 16 LN). cbn [bind].
  assert (LG : length g' < fuel) by (rewrite !app_length in L; cbn [length] in L; lia).
  assert (ES' : s = (a ++ b ++ t_head n) ++ g') by (rewrite ES, head_split, <- !app_assoc; reflexivity).
  assert (PS : forall p, length a <= p /\ occurs s_test_r s p <-> p = length a + pos \/ (length (a ++ b ++ t_head n) <= p /\ occurs s_test_r s p)).
  { intros p. rewrite !app_length, head_length, LB. split.
    - intros (LE & OP). destruct (lt_eq_lt_dec p (length a + pos)) as [[X|X]|X]; [exfalso|left; exact X|right; split; [|exact OP]].
      + apply (FST (p - length a)); [lia|]. apply (occurs_shift _ a). rewrite <- ES. replace (length a + (p - length a)) with p by lia. exact OP.
      + assert (OP' : occurs s_test_r (t_head n ++ g') (p - (length a + pos))).
        { apply (occurs_shift _ (a ++ b)). rewrite app_length, LB. replace (length a + pos + (p - (length a + pos))) with p by lia.
          replace ((a ++ b) ++ t_head n ++ g') with s by (rewrite ES', <- !app_assoc; reflexivity). exact OP. }
        apply head_next in OP'. lia.
    - intros [->|(LE & OP)]; (split; [lia|assumption]). }
  assert (SORT : forall ps, Sorted.StronglySorted lt ps -> (forall p, In p ps <-> length (a ++ b ++ t_head n) <= p /\ occurs s_test_r s p) ->
                 Sorted.StronglySorted lt (length a + pos :: ps) /\ forall p, In p (length a + pos :: ps) <-> length a <= p /\ occurs s_test_r s p).
  { intros ps SS IN. split.
    - constructor; [exact SS|]. apply Forall_forall. intros p J. apply IN in J. destruct J as (LE & _). rewrite !app_length, head_length in LE. lia.
    - intros p. cbn [In]. rewrite IN, PS. split; (intros [X|X]; [left; symmetry; exact X|right; exact X]). }
  destruct (find_sub (closing n) g') as [e|] eqn:FC.
  - apply find_sub_occurs in FC. destruct FC as ((body & rest & EB & LBODY) & FB). subst g'.
    rewrite <- LBODY. assert (UC : utf8 (closing n ++ rest)).
    { apply (utf8_split body); [exact UG|]. intros x X. injection X as <-. reflexivity. }
    rewrite (upto_ok body _ UC). cbn [bind].
    destruct (IH (a ++ b ++ t_head n) _ (acc ++ [trim body]) ES' UG LG) as (ps & out & EV & TA & SS & IN).
    exists (length a + pos :: ps), (trim body :: out). rewrite <- app_assoc in EV. split; [exact EV|]. split.
    + apply (ta_closed trim s _ _ _ (a ++ b) n body rest); [|rewrite app_length; lia| |exact TA].
      * rewrite ES'. unfold t_head. rewrite <- !app_assoc. reflexivity.
      * intros j J. apply FB. lia.
    + apply SORT; assumption.
  - destruct (IH (a ++ b ++ t_head n) _ acc ES' UG LG) as (ps & out & EV & TA & SS & IN).
    exists (length a + pos :: ps), out. split; [exact EV|]. split.
    + apply (ta_open trim s _ _ _ (a ++ b) n g'); [|rewrite app_length; lia| |exact TA].
      * rewrite ES'. unfold t_head. rewrite <- !app_assoc. reflexivity.
      * apply find_sub_never. exact FC.
    + apply SORT; assumption.
Qed.

Lemma utf8_app : forall a b, utf8 a -> utf8 b -> utf8 (a ++ b).
Proof.
  intros a b (x & FX & ->) (y & FY & ->). exists (x ++ y). split; [apply Forall_app; split; assumption|symmetry; apply concat_app].
Qed.

Lemma occurs_left : forall c a b j, occurs c a j -> occurs c (a ++ b) j.
Proof. intros c a b j (x & y & -> & L). exists x, (y ++ b). split; [rewrite <- !app_assoc; reflexivity|exact L]. Qed.

(** A valid string found inside a valid string starts and ends between characters. *)
Lemma utf8_around : forall a c b, utf8 (a ++ c ++ b) -> utf8 c -> c <> [] -> utf8 (c ++ b) /\ utf8 b.
Proof.
  intros a c b U UC NE.
  assert (U1 : utf8 (c ++ b)).
  { apply (utf8_split a); [exact U|]. intros x X. apply (utf8_head c); [exact UC|]. destruct c; [contradiction|exact X]. }
  split; [exact U1|]. clear U NE.
  (* the characters of [c ++ b] start with those of [c] *)
  destruct UC as (cs & FC & ->). destruct U1 as (ds & FD & E). revert ds FD E.
  induction cs as [|ch cs IH]; intros ds FD E. { exists ds. split; [exact FD|exact E]. }
  inversion FC as [|? ? (V & A) FC']; subst. destruct ds as [|d ds].
  { destruct ch as [|y r]; [destruct V|discriminate E]. }
  inversion FD as [|? ? (V' & A') FD']; subst. destruct ch as [|y r]; [destruct V|]. destruct d as [|y' r']; [destruct V'|].
  cbn [concat] in E. rewrite <- app_assoc in E. assert (y' = y) as -> by (injection E; congruence).
  destruct (app_len_inv _ _ _ _ E) as (_ & E'). { rewrite (A y eq_refl), (A' y eq_refl). reflexivity. }
  exact (IH FC' ds FD' E').
Qed.
