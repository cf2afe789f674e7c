(** C41, C43, C49: the hand-written scanners, test markers, and the inline tests of a grammar. *)
From Coq Require Import List Arith Bool Lia Sorted.
From Verif Require Import Base TextModel TextSpec ScanModel ScanSpec ScanProofs.
Import ListNotations.

(** Nested comments: the scanner stops exactly where the last open comment is closed, or at the end of the text
    if that never happens. *)
Theorem C41_block_comment :
  forall s, utf8 s -> occurs [47; 42] s 0 ->
  exists n, parse_block_comment s = Ok (Some n) /\ n <= length s /\
    ((open_at s n 0 /\ forall m, open_at s m 0 -> m = n) \/ (n = length s /\ forall m, ~ open_at s m 0)).
Proof.
  intros s U (a & b & -> & LA). destruct a; [|discriminate LA]. cbn [app] in *.
  assert (UB : utf8 b) by (apply (utf8_ascii [47] 42); [exact U|lia]).
  assert (L2 : 2 <= length (47 :: 42 :: b)) by (cbn [length]; lia).
  unfold parse_block_comment. change (suffix (47 :: 42 :: b) 2) with (suffix ([47; 42] ++ b) (length [47; 42])).
  rewrite (suffix_ok [47; 42] b UB). cbn [bind].
  destruct (comment_ok (S (length (47 :: 42 :: b))) [47; 42] b 1 UB ltac:(cbn [length]; lia) (oa_start _)) as (n & d & E & O & D).
  change (length [47; 42]) with 2 in E. rewrite E. cbn [bind]. exists n. split; [reflexivity|].
  change ([47; 42] ++ b) with (47 :: 42 :: b) in *. split; [exact (open_at_le _ _ _ L2 O)|].
  destruct D as [->|D].
  - left. split; [exact O|]. intros m M. pose proof (open_end _ _ _ _ O M). pose proof (open_end _ _ _ _ M O). lia.
  - destruct d as [|d].
    + left. split; [exact O|]. intros m M. pose proof (open_end _ _ _ _ O M). pose proof (open_end _ _ _ _ M O). lia.
    + right. split; [exact D|]. intros m M. pose proof (open_at_le _ _ _ L2 M) as LE. pose proof (open_end _ _ _ _ M O) as LE'.
      assert (m = n) as -> by lia. destruct (open_linear _ _ _ M _ _ O) as [X|X]; apply steps_head in X.
      * destruct X as [X|(q & e & X & _)]; [injection X; discriminate|injection X; discriminate].
      * destruct X as [X|(q & e & X & Y)]; [injection X; discriminate|]. injection X as <- <-.
        destruct Y as [(_ & Y)|[(_ & Y)|(_ & _ & _ & Y)]]; apply steps_le in Y; cbn [fst] in Y; lia.
Qed.
Print Assumptions C41_block_comment.

(** Raw strings with up to 30 hashes end at the first quote followed by as many hashes. *)
Theorem C41_raw_string :
  forall n body rest, n <= 30 -> utf8 (opening n ++ body ++ closing n ++ rest) ->
  (forall j, j < length body -> ~ occurs (closing n) (body ++ closing n ++ rest) j) ->
  parse_raw_string (opening n ++ body ++ closing n ++ rest) = Ok (Some (length (opening n ++ body ++ closing n))).
Proof.
  intros n body rest L U F. rewrite (raw_string n _ U). rewrite (proj2 (Nat.leb_le _ _) L).
  assert (FA : find_sub (closing n) (body ++ closing n ++ rest) = Some (length body)).
  { apply find_sub_occurs. split; [exists body, rest; split; reflexivity|exact F]. }
  rewrite FA. cbn [option_map]. rewrite !app_length. do 2 f_equal. lia.
Qed.
Print Assumptions C41_raw_string.

Theorem C41_raw_string_unclosed :
  forall n rest, n <= 30 -> utf8 (opening n ++ rest) -> (forall j, ~ occurs (closing n) rest j) ->
  parse_raw_string (opening n ++ rest) = Ok None.
Proof.
  intros n rest L U F. rewrite (raw_string n _ U). rewrite (proj2 (Nat.leb_le _ _) L).
  apply find_sub_never in F. rewrite F. reflexivity.
Qed.
Print Assumptions C41_raw_string_unclosed.

Theorem C41_raw_string_panics :
  forall n rest, utf8 (opening n ++ rest) -> (parse_raw_string (opening n ++ rest) = Panic <-> 30 < n).
Proof.
  intros n rest U. rewrite (raw_string n _ U). destruct (n <=? 30) eqn:E.
  - apply Nat.leb_le in E. split; [discriminate|lia].
  - apply Nat.leb_gt in E. split; [intros _; exact E|reflexivity].
Qed.
Print Assumptions C41_raw_string_panics.

(** Two nested comments, then code; an unclosed comment; a raw string containing a quote and a hash. *)
Example C41_comment_case :
  let s := [47; 42; 97; 47; 42; 195; 169; 42; 47; 42; 47; 59] in
  utf8 s /\ occurs [47; 42] s 0 /\ parse_block_comment s = Ok (Some 11) /\ open_at s 11 0
  /\ parse_block_comment [47; 42; 97; 47; 42; 42; 47] = Ok (Some 7).
Proof.
  split; [exists [[47]; [42]; [97]; [47]; [42]; [195; 169]; [42]; [47]; [42]; [47]; [59]]; split; [|reflexivity]|].
  { repeat (constructor; [split; [split; [reflexivity|repeat constructor]|intros b E; injection E as <-; reflexivity]|]). constructor. }
  split; [exists [], [97; 47; 42; 195; 169; 42; 47; 42; 47; 59]; split; reflexivity|]. split; [reflexivity|]. split; [|reflexivity].
  destruct (C41_block_comment [47; 42; 97; 47; 42; 195; 169; 42; 47; 42; 47; 59]) as (n & E & _ & H).
  - exists [[47]; [42]; [97]; [47]; [42]; [195; 169]; [42]; [47]; [42]; [47]; [59]]. split; [|reflexivity].
    repeat (constructor; [split; [split; [reflexivity|repeat constructor]|intros b E; injection E as <-; reflexivity]|]). constructor.
  - exists [], [97; 47; 42; 195; 169; 42; 47; 42; 47; 59]. split; reflexivity.
  - vm_compute in E. injection E as <-. destruct H as [(H & _)|(H & _)]; [exact H|discriminate H].
Qed.

Example C41_raw_case :
  let s := opening 2 ++ [97; 34; 35; 98] ++ closing 2 ++ [34; 35; 35] in
  utf8 s /\ (forall j, j < 4 -> ~ occurs (closing 2) ([97; 34; 35; 98] ++ closing 2 ++ [34; 35; 35]) j)
  /\ parse_raw_string s = Ok (Some 11) /\ parse_raw_string (opening 31) = Panic.
Proof.
  split; [apply ascii_utf8; repeat (constructor; [lia|]); constructor|]. split; [|split; reflexivity].
  intros j J O. apply occurs_prefix in O. destruct O as (_ & O). destruct j as [|[|[|[|j]]]]; try discriminate O. lia.
Qed.

(** ** Markers *)

(** Putting a marker into a text that does not contain it and taking it out again gives the text and the place.
    The marker must not overlap itself (a single character does not). *)
Theorem C43_extract_offset :
  forall caret left right, unbordered caret -> utf8 caret -> utf8 left -> utf8 right ->
  (forall j, ~ occurs caret (left ++ right) j) ->
  extract_offset (left ++ caret ++ right) caret = Ok (left ++ right, length left).
Proof.
  intros c a b UN UC UA UB NO. apply extract_offset_at; [|apply utf8_app; assumption|exact UB].
  apply unbordered_first; [exact UN|]. intros j O. apply (NO j). apply occurs_left. exact O.
Qed.
Print Assumptions C43_extract_offset.

Theorem C43_extract_range :
  forall caret left mid right, unbordered caret -> utf8 caret -> utf8 left -> utf8 mid -> utf8 right ->
  (forall j, ~ occurs caret (left ++ mid ++ right) j) ->
  extract_range (left ++ caret ++ mid ++ caret ++ right) caret
    = Ok (left ++ mid ++ right, mkRange (length left) (length left + length mid)).
Proof.
  intros c a m b UN UC UA UM UB NO.
  apply extract_range_at; try (repeat apply utf8_app; assumption).
  - apply unbordered_first; [exact UN|]. intros j O. apply (NO j). apply occurs_left. exact O.
  - apply unbordered_first; [exact UN|]. intros j O. apply (NO (length a + j)). apply (proj1 (occurs_shift c a (m ++ b) j)). apply occurs_left. exact O.
Qed.
Print Assumptions C43_extract_range.

(** They panic exactly when the markers are missing (for a marker that is a valid string, as Rust's types say). *)
Theorem C43_offset_panics :
  forall input caret, utf8 input -> utf8 caret -> caret <> [] ->
  (extract_offset input caret = Panic <-> forall j, ~ occurs caret input j).
Proof.
  intros s c U UC NE. split.
  - intros P. apply find_sub_never. destruct (find_sub c s) as [i|] eqn:F; [|reflexivity]. exfalso.
    apply find_sub_occurs in F. destruct F as ((a & b & -> & <-) & FST).
    destruct (utf8_around a c b U UC NE) as (U1 & U2).
    rewrite (extract_offset_at a c b (conj (ex_intro _ a (ex_intro _ b (conj eq_refl eq_refl))) FST) U1 U2) in P. discriminate P.
  - intros N. apply find_sub_never in N. unfold extract_offset. rewrite N. reflexivity.
Qed.
Print Assumptions C43_offset_panics.

Theorem C43_range_panics :
  forall input caret, utf8 input -> utf8 caret -> caret <> [] ->
  (extract_range input caret = Panic <->
   forall i j, i + length caret <= j -> ~ (occurs caret input i /\ occurs caret input j)).
Proof.
  intros s c U UC NE. split.
  - intros P i j L (OI & OJ).
    destruct (find_sub c s) as [i0|] eqn:F; [|apply (proj1 (find_sub_never _ _) F i OI)].
    apply find_sub_occurs in F. destruct F as ((a & s' & E & LA) & FST).
    assert (L0 : i0 <= i) by (destruct (le_lt_dec i0 i) as [X|X]; [exact X|exfalso; exact (FST i X OI)]).
    subst s. destruct (utf8_around a c s' U UC NE) as (U1 & U2).
    assert (OJ' : occurs c s' (j - i0 - length c)).
    { apply (occurs_shift _ (a ++ c)). rewrite <- app_assoc, app_length.
      replace (length a + length c + (j - i0 - length c)) with j by lia. exact OJ. }
    destruct (find_sub c s') as [k|] eqn:F'; [|apply (proj1 (find_sub_never _ _) F' _ OJ')].
    apply find_sub_occurs in F'. destruct F' as ((m & b & -> & <-) & FST').
    destruct (utf8_around m c b U2 UC NE) as (U3 & U4).
    rewrite (extract_range_at a c m b) in P; try assumption; [discriminate P| |].
    + split; [exists a, (m ++ c ++ b); split; reflexivity|]. rewrite LA. exact FST.
    + split; [exists m, b; split; reflexivity|exact FST'].
  - intros N. unfold extract_range. destruct (find_sub c s) as [i|] eqn:F; [|reflexivity]. cbn [unwrap bind].
    apply find_sub_occurs in F. destruct F as ((a & s' & -> & <-) & FST). destruct (utf8_around a c s' U UC NE) as (U1 & U2).
    rewrite <- app_length, (app_assoc a c s'). rewrite (suffix_ok (a ++ c) s' U2). cbn [bind].
    destruct (find_sub c s') as [k|] eqn:F'; [|reflexivity]. exfalso. apply find_sub_occurs in F'. destruct F' as (O & _).
    apply (N (length a) (length (a ++ c) + k)); [rewrite app_length; lia|]. split; [exists a, s'; split; reflexivity|].
    rewrite app_assoc. apply occurs_shift. exact O.
Qed.
Print Assumptions C43_range_panics.

(** A marker that overlaps itself is found too early: taking it out gives back the text but not the place. *)
Theorem C43_overlapping_marker_refuted :
  exists caret left right, utf8 caret /\ utf8 left /\ utf8 right /\ caret <> [] /\
    (forall j, ~ occurs caret (left ++ right) j) /\
    extract_offset (left ++ caret ++ right) caret <> Ok (left ++ right, length left).
Proof.
  exists [94; 94], [94], []. split; [apply ascii_utf8; repeat constructor; lia|]. split; [apply ascii_utf8; repeat constructor; lia|].
  split; [exact utf8_nil|]. split; [discriminate|]. split; [|discriminate].
  intros j O. apply occurs_prefix in O. destruct O as (L & O). cbn [app length] in *. destruct j as [|[|j]]; [discriminate O|discriminate O|lia].
Qed.
Print Assumptions C43_overlapping_marker_refuted.

(** The marker of the repository's tests is a caret; it satisfies the hypotheses. *)
Example C43_case :
  unbordered [94] /\ extract_offset [97; 94; 98] [94] = Ok ([97; 98], 1)
  /\ extract_range [97; 94; 98; 94; 99] [94] = Ok ([97; 98; 99], mkRange 1 2) /\ extract_range [97; 94; 98] [94] = Panic.
Proof.
  split; [split; [discriminate|]|repeat split]. intros [|x a] [|y b] d NA NB E _; [contradiction|contradiction|contradiction|].
  injection E as _ E. destruct a; discriminate E.
Qed.

(** ** Inline tests *)

(** If every [test r] of a grammar starts a raw string (with at most 16 hashes), the tests found are the trimmed
    contents of those strings, one for each occurrence of [test r] whose string is closed, in order. *)
Theorem C49_collect_tests :
  forall trim s, utf8 s ->
  (forall p, occurs [116; 101; 115; 116; 32; 114] s p ->
    exists a n body, n <= 16 /\ s = a ++ [116; 101; 115; 116; 32] ++ opening n ++ body /\ length a = p) ->
  exists ps out, collect_tests trim s = Ok out /\ tests_at trim s ps out /\ StronglySorted lt ps
    /\ forall p, In p ps <-> occurs [116; 101; 115; 116; 32; 114] s p.
Proof.
  intros trim s U G.
  assert (GOOD : good_tests s).
  { intros p O. destruct (G p O) as (a & n & body & L & E & LA). exists a, n, body. unfold t_head. rewrite <- app_assoc. auto. }
  destruct (collect_ok trim s GOOD (S (length s)) [] s [] eq_refl U ltac:(lia)) as (ps & out & E & T & SS & IN).
  exists ps, out. split; [exact E|]. split; [exact T|]. split; [exact SS|]. intros p. rewrite IN. split; [intros (_ & O); exact O|].
  intros O. split; [cbn; lia|exact O].
Qed.
Print Assumptions C49_collect_tests.

(** The hypothesis cannot be dropped: a grammar that ends in [test r], or that has a test with 17 hashes, makes the
    collection panic; and the text of a test that itself contains a test is collected as a second one. *)
Theorem C49_collect_all_refuted :
  (forall trim, collect_tests trim [116; 101; 115; 116; 32; 114] = Panic) /\
  (forall trim, collect_tests trim ([116; 101; 115; 116; 32] ++ opening 17 ++ [97] ++ closing 17) = Panic) /\
  (exists inner, forall trim,
     collect_tests trim ([116; 101; 115; 116; 32] ++ opening 1 ++ [116; 101; 115; 116; 32] ++ opening 0 ++ inner ++ closing 0 ++ closing 1)
       = Ok [trim ([116; 101; 115; 116; 32] ++ opening 0 ++ inner ++ closing 0); trim inner]).
Proof. split; [intros trim; reflexivity|]. split; [intros trim; reflexivity|]. exists [97]. intros trim. reflexivity. Qed.
Print Assumptions C49_collect_all_refuted.

(** [rule a test r#"x"# test r"y"] *)
Example C49_case :
  let s := [97; 32; 116; 101; 115; 116; 32; 114; 35; 34; 120; 34; 35; 32; 116; 101; 115; 116; 32; 114; 34; 121; 34] in
  utf8 s /\ (forall p, occurs [116; 101; 115; 116; 32; 114] s p ->
    exists a n body, n <= 16 /\ s = a ++ [116; 101; 115; 116; 32] ++ opening n ++ body /\ length a = p)
  /\ collect_tests (fun x => x) s = Ok [[120]; [121]].
Proof.
  split; [apply ascii_utf8; repeat (constructor; [lia|]); constructor|]. split; [|reflexivity].
  intros p O. apply occurs_prefix in O. destruct O as (L & O). cbn [length] in L.
  do 24 (destruct p as [|p]; [first [discriminate O|exists [97; 32], 1; eexists; repeat split; lia|
    exists [97; 32; 116; 101; 115; 116; 32; 114; 35; 34; 120; 34; 35; 32], 0; eexists; repeat split; lia]|]). lia.
Qed.
