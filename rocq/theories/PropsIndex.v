(** Properties of the line index (C31), the query automaton (C32), the symbol index (C33) and the file index (C34). *)
From Coq Require Import List Arith Bool Lia Sorted.
From Verif Require Import Base BaseFacts TextModel TextSpec TextProofs TreeModel TreeSpec TreeProofs SearchModel
  SearchSpec SearchProofs TraversalProofs FileEditSpec FileEditProofs EditorSpec EditorProofs IndexModel IndexSpec IndexProofs.
Import ListNotations.

(** ** C31: lines and columns *)

(** Every offset, even one past the end, is translated to its line and column. *)
Theorem C31_translate : forall cs off, Forall utf8_char cs ->
  exists line col, translate (line_index_new (concat cs)) off = Ok (line, col) /\ line_col (concat cs) off line col.
Proof. exact translate_ok. Qed.
Print Assumptions C31_translate.

(** Line and column are determined by the offset. *)
Theorem C31_unique : forall s off l c l' c', line_col s off l c -> line_col s off l' c' -> l = l' /\ c = c'.
Proof. exact line_col_unique. Qed.
Print Assumptions C31_unique.

(** Later offsets have later positions; in particular different offsets have different positions. *)
Theorem C31_monotone : forall cs o1 o2 l1 c1 l2 c2, Forall utf8_char cs -> o1 < o2 ->
  translate (line_index_new (concat cs)) o1 = Ok (l1, c1) -> translate (line_index_new (concat cs)) o2 = Ok (l2, c2) ->
  l1 < l2 \/ (l1 = l2 /\ c1 < c2).
Proof.
  intros cs o1 o2 l1 c1 l2 c2 U L E1 E2.
  destruct (translate_ok cs o1 U) as (a & b & X1 & L1). rewrite E1 in X1. injection X1 as <- <-.
  destruct (translate_ok cs o2 U) as (a & b & X2 & L2). rewrite E2 in X2. injection X2 as <- <-.
  eapply line_col_mono; eauto.
Qed.
Print Assumptions C31_monotone.

(** "a", newline, "é", newline, newline, "b": offsets 0, 2, 4, 5, 6, 7 and one past the end *)
Example C31_example : Forall utf8_char [[97]; [10]; [195; 169]; [10]; [10]; [98]]
  /\ map (translate (line_index_new (concat [[97]; [10]; [195; 169]; [10]; [10]; [98]]))) [0; 2; 4; 5; 6; 7; 9]
     = [Ok (0, 0); Ok (1, 0); Ok (1, 2); Ok (2, 0); Ok (3, 0); Ok (3, 1); Ok (3, 3)]
  /\ line_col [97; 10; 195; 169; 10; 10; 98] 4 1 2.
Proof.
  split; [repeat constructor; cbn; lia|]. split; [reflexivity|].
  exists [97; 10], [195; 169]. split; [reflexivity|]. split; [right; exists [97]; reflexivity|]. split; [cbn; lia|]. split; reflexivity.
Qed.

(** ** C32: the automaton *)

(** It never panics, whatever the state, and accepts a key exactly when the query is a subsequence of it. *)
Theorem C32_accepts : forall q k, exists st, a_run q a_start k = Ok st /\ (a_is_match q st = true <-> subseq q k).
Proof.
  intros q k. destruct (a_run_ok q k a_start ltac:(unfold a_start; lia)) as (st & R & _ & I).
  exists st. split; [exact R|]. unfold a_is_match. rewrite Nat.eqb_eq. exact I.
Qed.
Print Assumptions C32_accepts.

Theorem C32_never_panics : forall q st b, exists st', a_accept q st b = Ok st'.
Proof. intros q st b. destruct (a_accept_ok q st b) as (st' & E & _). eauto. Qed.
Print Assumptions C32_never_panics.

(** A state from which some continuation is accepted is never given up. *)
Theorem C32_can_match : forall q st k st', a_run q st k = Ok st' -> a_is_match q st' = true -> a_can_match st = true.
Proof. reflexivity. Qed.
Print Assumptions C32_can_match.

(** After any part [k0] of a key, [will_always_match] says exactly whether all continuations are accepted. *)
Theorem C32_will_always_match : forall q k0 st, a_run q a_start k0 = Ok st ->
  (a_will_always_match q st = true <-> forall k, subseq q (k0 ++ k)).
Proof.
  intros q k0 st R0. unfold a_will_always_match. rewrite Nat.eqb_eq.
  destruct (a_run_ok q k0 a_start ltac:(unfold a_start; lia)) as (st1 & R1 & B & I). rewrite R0 in R1. injection R1 as <-. split.
  - intros H k. apply I in H. unfold a_start in H. cbn [skipn] in H. clear - H. induction H as [l|a q l H IH|a q l H IH]; cbn [app]; constructor; auto.
  - intros H. specialize (H []). rewrite app_nil_r in H. apply I. exact H.
Qed.
Print Assumptions C32_will_always_match.

(** The query "fb" accepts "foo_bar", not "bf". *)
Example C32_example : subseq [102; 98] [102; 111; 111; 95; 98; 97; 114] /\ ~ subseq [102; 98] [98; 102]
  /\ a_run [102; 98] a_start [102; 111; 111; 95; 98; 97; 114] = Ok 2 /\ a_run [102; 98] a_start [98; 102] = Ok 1
  /\ a_will_always_match [102; 98] 2 = true /\ a_will_always_match [102; 98] 1 = false.
Proof.
  split; [repeat constructor|]. split.
  - intros H. inversion H as [|? ? ? H1|? ? ? H1]; subst. inversion H1 as [|? ? ? H2|? ? ? H2]; subst; [inversion H2|inversion H2].
  - repeat split; reflexivity.
Qed.

(** ** C33: the symbol index *)

(** The index of a file: building it never panics; its symbols are the definitions of the tree in bottom-up
    order, with their type, name, range and line/column range, the first of each lower-cased name. *)
Theorem C33_file_index : forall lower f T defs ident cs, wf_file f T -> char_tree (f_text f) T ->
  f_text f = concat cs -> Forall utf8_char cs ->
  exists order ls x, subtree (f_nodes f) root = Ok order
    /\ Forall2 (node_symbols f T defs ident) order ls
    /\ file_symbols_new lower f defs ident = Ok x /\ indexes lower (concat ls) x.
Proof. intros lower f T defs ident cs WF CT TX U. exact (file_symbols_ok f T WF CT defs ident lower cs TX U). Qed.
Print Assumptions C33_file_index.

(** Any list of symbols, whatever the lower-casing function. *)
Theorem C33_symbols : forall lower l, exists x, index_symbols lower l = Ok x /\ indexes lower l x.
Proof. exact index_symbols_ok. Qed.
Print Assumptions C33_symbols.

(** A query never panics.  Without '#' only types are answers, unless there are none; the result is what
    [visited] says: complete unless there are more than [limit] answers. *)
Theorem C33_query : forall lower lower_chars (P : Type) limit types q lists1 lists2 (files1 files2 : list (P * file_symbols)),
  Forall2 (fun l x => indexes lower l (snd x)) lists1 files1 -> Forall2 (fun l x => indexes lower l (snd x)) lists2 files2 ->
  let text := lower_chars (remove Nat.eq_dec 35 q) in
  exists r, query_index lower_chars limit types files1 files2 q = Ok r
    /\ ((In 35 q /\ visited lower limit types (mkQuery text true) lists1 files1 r)
        \/ (~ In 35 q /\ r <> [] /\ visited lower limit types (mkQuery text false) lists1 files1 r)
        \/ (~ In 35 q /\ visited lower limit types (mkQuery text false) lists1 files1 [] /\ visited lower limit types (mkQuery text true) lists2 files2 r)).
Proof.
  intros lower lower_chars P limit types q lists1 lists2 files1 files2 F1 F2 text. unfold query_index.
  assert (TX : q_query (query_new lower_chars q) = text).
  { unfold query_new, text. cbn [q_query]. f_equal. clear. induction q as [|b q IH]; [reflexivity|]. cbn [filter remove].
    destruct (Nat.eq_dec 35 b) as [E|E].
    - subst b. exact IH.
    - assert (X : b =? 35 = false) by (apply Nat.eqb_neq; congruence). rewrite X. cbn [negb]. now rewrite IH. }
  assert (HA : q_all (query_new lower_chars q) = true <-> In 35 q).
  { unfold query_new. cbn [q_all]. rewrite existsb_exists. split.
    - intros (x & I & E). apply Nat.eqb_eq in E. now subst.
    - intros I. exists 35. split; [exact I|reflexivity]. }
  destruct (query_new lower_chars q) as [qt all]. cbn [q_query q_all] in *. subst qt.
  destruct (process_query_visited lower P limit types (mkQuery text all) files1 lists1 F1) as (r1 & -> & V1). cbn [bind].
  destruct all; cbn [negb].
  - rewrite andb_false_r. exists r1. split; [reflexivity|]. left. split; [now apply HA|exact V1].
  - assert (NH : ~ In 35 q) by (intros Q; apply HA in Q; discriminate). rewrite andb_true_r. destruct r1 as [|a r1].
    + destruct (process_query_visited lower P limit types (mkQuery text true) files2 lists2 F2) as (r2 & -> & V2).
      exists r2. split; [reflexivity|]. right. right. auto.
    + exists (a :: r1). split; [reflexivity|]. right. left. split; [exact NH|]. split; [discriminate|exact V1].
Qed.
Print Assumptions C33_query.

(** What [visited] means for single answers: each comes from an indexed file and matches; *)
Theorem C33_sound : forall lower (P : Type) limit types q lists (files : list (P * file_symbols)) r p s,
  visited lower limit types q lists files r -> length lists = length files -> In (p, s) r ->
  exists i l x, nth_error lists i = Some l /\ nth_error files i = Some (p, x) /\ answers lower types q l s /\ In s l.
Proof.
  intros lower P limit types q lists files r p s (n & anss & N & F & -> & _) L I.
  apply in_concat in I as (y & I1 & I2). apply in_map_iff in I1 as ([[p' x] ans] & <- & I1). cbn [fst snd] in I2.
  apply in_map_iff in I2 as (s' & E & I2). injection E as -> ->. revert I1 I2. clear L.
  revert lists files N F. revert anss. induction n as [|n IH]; intros anss lists files N F I1 I2; [destruct I1|].
  destruct files as [|f files]; [destruct I1|]. cbn [firstn] in I1. destruct lists as [|l lists]; cbn [firstn] in F.
  - inversion F; subst. destruct I1.
  - inversion F as [|? a ? anss' FA F']; subst. cbn [combine] in I1. destruct I1 as [I1|I1].
    + injection I1 as -> ->. exists 0, l, x. split; [reflexivity|]. split; [reflexivity|]. destruct FA as [_ FA]. apply FA in I2. split; [exact I2|].
      apply (first_named_in lower). apply I2.
    + destruct (IH anss' lists files ltac:(cbn in N; lia) F' I1 I2) as (i & l' & x' & A & B & C). exists (S i), l', x'. auto.
Qed.
Print Assumptions C33_sound.

(** every answer of every file is there unless the limit was exceeded; *)
Theorem C33_complete : forall lower (P : Type) limit types q lists (files : list (P * file_symbols)) r i l p x s,
  visited lower limit types q lists files r -> length lists = length files -> length r <= limit ->
  nth_error lists i = Some l -> nth_error files i = Some (p, x) -> answers lower types q l s -> In (p, s) r.
Proof.
  intros lower P limit types q lists files r i l p x s (n & anss & N & F & E & Z & _) L LE NL NF A.
  assert (n = length files) by (destruct (Nat.eq_dec n (length files)); [assumption|specialize (Z ltac:(lia)); lia]). subst n.
  rewrite firstn_all in E. rewrite (firstn_all2 lists) in F by lia. subst r. clear Z LE N.
  revert lists files anss F L NL NF. induction i as [|i IH]; intros [|l0 lists] [|f0 files] anss F L NL NF; try discriminate;
    inversion F as [|? a ? anss' FA F']; subst; cbn [combine map concat]; apply in_or_app.
  - injection NL as ->. injection NF as ->. left. cbn [fst snd]. apply in_map_iff. exists s. split; [reflexivity|]. destruct FA as [_ FA]. now apply FA.
  - right. apply (IH lists files anss' F' ltac:(cbn in L; lia) NL NF).
Qed.
Print Assumptions C33_complete.

(** and at most [limit] answers come before those of the last file visited. *)
Theorem C33_limit : forall lower (P : Type) limit types q lists (files : list (P * file_symbols)) r,
  visited lower limit types q lists files r -> length lists = length files ->
  length r <= limit \/ exists i l ans, nth_error lists i = Some l /\ file_answers lower types q l ans /\ length r <= limit + length ans.
Proof.
  intros lower P limit types q lists files r (n & anss & N & F & -> & _ & Z) L.
  pose proof (Forall2_length _ _ _ _ _ F) as FL. rewrite firstn_length in FL.
  rewrite visited_length by (rewrite firstn_length; lia).
  destruct n as [|n].
  - left. inversion F; subst. cbn. lia.
  - right. specialize (Z n ltac:(lia)).
    destruct (nth_error lists n) as [l|] eqn:NL; [|apply nth_error_None in NL; lia].
    destruct (nth_error anss n) as [ans|] eqn:NA; [|apply nth_error_None in NA; lia].
    exists n, l, ans. split; [exact NL|].
    assert (G : forall n (ls : list (list symbol)) an l a, Forall2 (file_answers lower types q) (firstn (S n) ls) an -> nth_error ls n = Some l -> nth_error an n = Some a -> length an = S n ->
      file_answers lower types q l a /\ length (concat an) = length (concat (firstn n an)) + length a).
    { clear. induction n as [|n IH]; intros [|l0 ls] an l a F NL NA LA; try discriminate; cbn [firstn] in F; inversion F as [|? a0 ? an' FA F']; subst.
      - injection NL as ->. injection NA as ->. inversion F'; subst. split; [exact FA|]. cbn. rewrite app_nil_r. lia.
      - cbn [nth_error] in NL, NA. destruct (IH ls an' l a F' NL NA ltac:(cbn in LA; lia)) as [X Y]. split; [exact X|]. cbn [concat firstn]. rewrite !app_length, Y. lia. }
    destruct (G n lists anss l ans F NL NA ltac:(lia)) as [X Y]. split; [exact X|lia].
Qed.
Print Assumptions C33_limit.

(** Two files; names "Foo", "foo" (a function) and "Bar"; types 1 = struct, 2 = function.  [lower] maps upper-case ASCII letters. *)
Definition ex_lower : bytes -> bytes := map (fun b => if (65 <=? b) && (b <=? 90) then b + 32 else b).
Definition ex_sym (ty : nat) (name : bytes) : symbol := mkSymbol ty name (mkRange 0 0) ((0, 0), (0, 0)).
Definition ex_l1 := [ex_sym 2 [102; 111; 111]; ex_sym 1 [66; 97; 114]; ex_sym 1 [70; 111; 111]].
Definition ex_l2 := [ex_sym 1 [70; 111]].

Example C33_example : exists x1 x2, index_symbols ex_lower ex_l1 = Ok x1 /\ index_symbols ex_lower ex_l2 = Ok x2
  /\ fs_map x1 = [([98; 97; 114], 0); ([102; 111; 111], 1)]
  /\ query_index ex_lower 512 [1] [(7, x1); (8, x2)] [(7, x1); (8, x2)] [70; 79] = Ok [(8, ex_sym 1 [70; 111])]
  /\ query_index ex_lower 512 [1] [(7, x1); (8, x2)] [(7, x1); (8, x2)] [35; 70] = Ok [(7, ex_sym 2 [102; 111; 111]); (8, ex_sym 1 [70; 111])]
  /\ query_index ex_lower 0 [1] [(7, x1); (8, x2)] [(7, x1); (8, x2)] [35; 70] = Ok [(7, ex_sym 2 [102; 111; 111])]
  /\ query_index ex_lower 512 [1] [(7, x1); (8, x2)] [(7, x1); (8, x2)] [70; 79; 79] = Ok [(7, ex_sym 2 [102; 111; 111])].
Proof. eexists. eexists. split; [reflexivity|]. split; [reflexivity|]. repeat split; reflexivity. Qed.

(** A file "fn a" with tree: a definition (type 2) with an identifier (type 3). *)
Example C33_file_example : let T := Node 1 [Node 2 [Leaf 4 2; Leaf 5 1; Leaf 3 1]] in
  let f := mkFile [102; 110; 32; 97] (layout T None 0 0) in
  wf_file f T /\ char_tree (f_text f) T /\ f_text f = concat [[102]; [110]; [32]; [97]] /\ Forall utf8_char [[102]; [110]; [32]; [97]]
  /\ file_symbols_new ex_lower f [2] 3 = Ok (mkFS [mkSymbol 2 [97] (mkRange 0 4) ((0, 0), (0, 4))] [([97], 0)]).
Proof.
  cbv zeta. split; [split; [apply layout_stores|reflexivity]|]. split; [|split; [reflexivity|split; [repeat constructor|reflexivity]]].
  assert (AL : forall i, i <= 4 -> aligned [102; 110; 32; 97] i).
  { intros i H. apply boundary_spec. do 5 (destruct i; [reflexivity|]). lia. }
  intros i p par t A. apply AtG_At in A. apply AtG_bounds in A. cbn in A. split; apply AL; cbn; lia.
Qed.

(** ** C34: the file index *)

(** After any sequence of notifications, the entry of every path is what its latest effective notification made
    it ([entry]); this determines the entry. *)
Theorem C34_entry : forall content V (mapper : content -> option V) passes roots events p o,
  im_get V (watch content V mapper passes roots events) p = o
  <-> entry content V mapper passes p (roots ++ flat_map (event_changes content) events) o.
Proof.
  intros content V mapper passes roots events p o. unfold watch. split.
  - intros <-. apply run_entry.
  - intros H. eapply entry_unique; [apply run_entry|exact H].
Qed.
Print Assumptions C34_entry.

(** If some notification named [p] itself (not a directory then) and the file was not changed afterwards, the
    index holds exactly the value of the file, or nothing if there is no such file or it fails the filter. *)
Theorem C34_current : forall content V (mapper : content -> option V) passes pre s post p,
  ~ dir_at content s p ->
  Forall (fun x => ~ dir_at content (fst x) p /\ fs_read content (fst x) p = fs_read content s p) post ->
  forall v, im_get V (run_changes content V mapper passes (pre ++ (s, p) :: post) []) p = Some v
    <-> passes p = true /\ value_at content V mapper s p v.
Proof.
  intros content V mapper passes pre s post p ND F v.
  assert (E : run_changes content V mapper passes (pre ++ (s, p) :: post) []
    = run_changes content V mapper passes post (change_at content V mapper passes s p (run_changes content V mapper passes pre []))).
  { generalize (@nil (path * V)). induction pre as [|[s' n'] pre IH]; intros m; [reflexivity|]. cbn [app run_changes]. apply IH. }
  rewrite E. rewrite (entry_stable content V mapper passes p s post).
  - destruct (passes p); [rewrite map_file_some|]; split; try discriminate; [auto|intros [_ H]; exact H|intros [H _]; discriminate].
  - destruct (change_get content V mapper passes s p (run_changes content V mapper passes pre []) p) as [(w & (P & Y & _) & ->)|[((_ & _ & R) & ->)|([I1 I2] & ->)]].
    + rewrite P. apply map_file_some in Y. congruence.
    + destruct (passes p); [|reflexivity]. symmetry. apply map_file_none. destruct R as [R|[_ R]]; [|exact R]. intros [w Y]. apply R. eapply value_file; eauto.
    + destruct (passes p) eqn:P.
      * destruct (map_file content V mapper s p) as [w|] eqn:M.
        -- exfalso. apply (I1 w). split; [exact P|]. split; [now apply map_file_some|]. left. auto.
        -- exfalso. apply I2. split; [reflexivity|]. split; [exact ND|]. right. split; [exact P|]. now apply map_file_none.
      * destruct (im_get V (run_changes content V mapper passes pre []) p) as [w|] eqn:G; [|reflexivity]. exfalso.
        pose proof (run_entry content V mapper passes pre p) as H. rewrite G in H. clear - H P. remember (Some w) as o eqn:EO. revert w EO.
        induction H as [|evs s n v X|evs s n X|evs s n o X H IH]; intros w EO; try discriminate; [|eapply IH; eauto]. destruct X as [X _]. congruence.
  - exact F.
Qed.
Print Assumptions C34_current.

(** Handling changes while the file system is changing: the snapshots seen by [exists], [is_dir], the walk and
    each read are arbitrary.  Every path occurs once, passes the filter, and its value was computed by the mapper
    from the contents of that very path at some moment. *)
Fixpoint run_racy content V (mapper : content -> option V) passes
    (evs : list (fs_state content * fs_state content * fs_state content * (path -> fs_state content) * path)) (m : index_map V) : index_map V :=
  match evs with
  | [] => m
  | (s1, s2, s3, reads, p) :: r => run_racy content V mapper passes r (change content V mapper passes s1 s2 s3 reads p m)
  end.

Theorem C34_filter : forall content V (mapper : content -> option V) passes evs,
  let m := run_racy content V mapper passes evs [] in
  NoDup (map fst m)
  /\ forall p v, In (p, v) m -> passes p = true /\ exists s1 s2 s3 reads n, In (s1, s2, s3, reads, n) evs /\ value_at content V mapper (reads p) p v.
Proof.
  intros content V mapper passes evs m. subst m.
  enough (G : forall m, NoDup (map fst m) -> NoDup (map fst (run_racy content V mapper passes evs m))
    /\ forall p v, In (p, v) (run_racy content V mapper passes evs m) -> In (p, v) m \/
       (passes p = true /\ exists s1 s2 s3 reads n, In (s1, s2, s3, reads, n) evs /\ value_at content V mapper (reads p) p v)).
  { destruct (G [] ltac:(constructor)) as [A B]. split; [exact A|]. intros p v I. destruct (B p v I) as [[]|H]; exact H. }
  induction evs as [|[[[[s1 s2] s3] reads] n] evs IH]; intros m N; cbn [run_racy]; [split; [exact N|auto]|].
  destruct (IH _ (change_nodup content V mapper passes s1 s2 s3 reads n m N)) as [A B]. split; [exact A|].
  intros p v I. destruct (B p v I) as [J|(P & t1 & t2 & t3 & rd & q & J & Y)].
  - apply change_in in J as [J|[P Y]]; [left; exact J|]. right. split; [exact P|]. exists s1, s2, s3, reads, n. split; [left; reflexivity|exact Y].
  - right. split; [exact P|]. exists t1, t2, t3, rd, q. split; [right; exact J|exact Y].
Qed.
Print Assumptions C34_filter.

(** "The index forgets files that are gone" is false: when a directory is removed and the notification names
    only the directory, the files that were in it stay in the index. *)
Theorem C34_removed_directory_refuted : exists (s1 s2 : fs_state nat) root d p,
  let passes := fun _ => true in
  inside d p /\ dir_at nat s1 d /\ file_at nat s1 p /\ ~ dir_at nat s2 d /\ ~ file_at nat s2 p
  /\ im_get nat (watch nat nat (@Some nat) passes [(s1, root)] [(Touched d, s2, s2)]) p = Some 5.
Proof.
  exists (mkFsState nat [([[1]; [2]], 5)] [[]; [[1]]]), (mkFsState nat [] [[]]), [], [[1]], [[1]; [2]].
  cbv zeta. split; [exists [[2]]; reflexivity|]. split; [right; left; reflexivity|]. split; [exists 5; left; reflexivity|].
  split; [intros [H|[]]; discriminate|]. split; [intros [c []]|reflexivity].
Qed.
Print Assumptions C34_removed_directory_refuted.

(** A file replaced by a directory of the same name stays in the index as well, even after its notification. *)
Theorem C34_replaced_file_refuted : exists (s1 s2 : fs_state nat) p,
  let passes := fun _ => true in
  file_at nat s1 p /\ ~ file_at nat s2 p /\ dir_at nat s2 p
  /\ im_get nat (watch nat nat (@Some nat) passes [(s1, [])] [(Touched p, s2, s2)]) p = Some 5.
Proof.
  exists (mkFsState nat [([[1]], 5)] [[]]), (mkFsState nat [] [[]; [[1]]]), [[1]].
  cbv zeta. split; [exists 5; left; reflexivity|]. split; [intros [c []]|]. split; [right; left; reflexivity|reflexivity].
Qed.
Print Assumptions C34_replaced_file_refuted.

(** Root directory with files a.rs (1) and b.txt (2); then a.rs is written, c.rs created, a.rs renamed to d.rs. *)
Example C34_example :
  let rs := fun p : path => match rev p with (x :: _) => is_prefix [115; 114; 46] (rev x) | [] => false end in
  let a := [[97; 46; 114; 115]] in let b := [[98; 46; 116; 120; 116]] in let c := [[99; 46; 114; 115]] in let d := [[100; 46; 114; 115]] in
  let s0 := mkFsState nat [(a, 1); (b, 2)] [[]] in let s1 := mkFsState nat [(a, 3); (b, 2); (c, 0)] [[]] in
  let s2 := mkFsState nat [(d, 3); (b, 2); (c, 0)] [[]] in
  let mapper := fun n => if n =? 0 then None else Some (10 * n) in
  let m1 := watch nat nat mapper rs [(s0, [])] [] in
  let m2 := watch nat nat mapper rs [(s0, [])] [(Touched a, s1, s1); (Touched c, s1, s1); (Other, s1, s1); (Renamed a d, s2, s2)] in
  map (im_get nat m1) [a; b; c; d] = [Some 10; None; None; None]
  /\ map (im_get nat m2) [a; b; c; d] = [None; None; None; Some 30].
Proof. split; reflexivity. Qed.
