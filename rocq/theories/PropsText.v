(** Properties C01-C06 and C44: ranges, text views, text edits. *)
From Coq Require Import List Arith Bool NArith Lia.
From Verif Require Import Base BaseFacts TextModel EditModel TextSpec TextProofs VsSpec VsProofs.
Import ListNotations.

(** ** C01: ranges as sets of offsets *)

Theorem C01_constructors : forall a b,
  (a <= b -> exists r, from_to a b = Ok r /\ proper r /\ (forall i, in_range r i <-> a <= i < b)
                       /\ range_len r = Ok (b - a) /\ (range_is_empty r = true <-> forall i, ~ in_range r i))
  /\ (b < a -> from_to a b = Panic)
  /\ (exists r, from_len a b = Ok r /\ forall i, in_range r i <-> a <= i < a + b).
Proof.
  intros a b. split; [|split].
  - intros H. rewrite from_to_ok by exact H. eexists. split; [reflexivity|].
    unfold proper, in_range, range_is_empty; cbn. split; [exact H|]. split; [intros; lia|].
    split; [apply usub_le; exact H|]. rewrite Nat.eqb_eq. split; intros; [lia|].
    specialize (H0 a). lia.
  - intros H. unfold from_to. apply Nat.leb_gt in H. now rewrite H.
  - rewrite from_len_ok. eexists. split; [reflexivity|]. unfold in_range; cbn. intros; lia.
Qed.
Print Assumptions C01_constructors.

Theorem C01_disjoint : forall r o, rstart r < rend r -> rstart o < rend o ->
  (disjoint r o = true <-> forall i, ~ (in_range r i /\ in_range o i)) /\ disjoint r o = disjoint o r.
Proof. intros. split; [now apply disjoint_spec|apply disjoint_sym]. Qed.
Print Assumptions C01_disjoint.

Theorem C01_intersects : forall r o, rstart r < rend r -> rstart o < rend o ->
  (intersects r o = true <-> exists i, in_range r i /\ in_range o i).
Proof. exact intersects_spec. Qed.
Print Assumptions C01_intersects.

(** An empty range is disjoint from another range exactly when it is not strictly inside it. *)
Theorem C01_disjoint_empty : forall o r, proper r ->
  (disjoint (mkRange o o) r = true <-> ~ (rstart r < o < rend r)).
Proof.
  intros o r P. unfold disjoint, proper in *. cbn. rewrite orb_true_iff, !Nat.leb_le. lia.
Qed.
Print Assumptions C01_disjoint_empty.

Theorem C01_subrange : forall r o, proper r -> rstart r < rend r ->
  (is_subrange_of r o = true <-> forall i, in_range r i -> in_range o i).
Proof. exact is_subrange_spec. Qed.
Print Assumptions C01_subrange.

Theorem C01_contains_offset : forall r o,
  contains_offset_nonstrict r o = true <-> rstart r <= o <= rend r.
Proof. exact contains_spec. Qed.
Print Assumptions C01_contains_offset.

Theorem C01_glue : forall r o, proper r -> proper o ->
  (rend r = rstart o ->
     exists g, glue r o = Ok g /\ proper g /\ forall i, in_range g i <-> in_range r i \/ in_range o i) /\
  (rend r <> rstart o -> glue r o = Panic).
Proof. exact glue_spec. Qed.
Print Assumptions C01_glue.

Theorem C01_shift_right : forall r k, proper r ->
  exists s, shift_right r k = Ok s /\ proper s /\ forall i, in_range s (k + i) <-> in_range r i.
Proof. exact shift_spec. Qed.
Print Assumptions C01_shift_right.

Example C01_example : exists r o, proper r /\ proper o /\ rstart r < rend r /\ rstart o < rend o
  /\ intersects r o = true /\ is_subrange_of r o = false /\ glue r (mkRange 5 9) = Ok (mkRange 2 9).
Proof. exists (mkRange 2 5), (mkRange 4 7). unfold proper. cbn. repeat split; lia. Qed.

(** ** C02: comparing ranges *)

Theorem C02_compare : forall a b, rstart a < rend a -> rstart b < rend b ->
  match range_cmp a b with
  | Some Lt => forall i j, in_range a i -> in_range b j -> i < j
  | Some Gt => forall i j, in_range a i -> in_range b j -> j < i
  | Some Eq => a = b
  | None => a <> b /\ exists i, in_range a i /\ in_range b i
  end.
Proof. exact range_cmp_spec. Qed.
Print Assumptions C02_compare.

Theorem C02_transitive : forall a b c, rstart b < rend b ->
  range_cmp a b = Some Lt -> range_cmp b c = Some Lt -> range_cmp a c = Some Lt.
Proof. exact range_cmp_lt_trans. Qed.
Print Assumptions C02_transitive.

Theorem C02_antisymmetric : forall a b, rstart a < rend a -> rstart b < rend b ->
  range_cmp b a = match range_cmp a b with Some c => Some (CompOpp c) | None => None end.
Proof. exact range_cmp_flip. Qed.
Print Assumptions C02_antisymmetric.

(** The unrestricted statement "a range compares equal to itself" is false: for empty ranges. *)
Theorem C02_empty_reflexive_refuted : exists r, proper r /\ range_eqb r r = true /\ range_cmp r r = Some Lt.
Proof. exists (mkRange 3 3). unfold proper. repeat split; auto. Qed.
Print Assumptions C02_empty_reflexive_refuted.

Example C02_example : exists a b c, rstart a < rend a /\ rstart b < rend b /\ range_cmp a b = Some Lt
  /\ range_cmp b c = Some Lt /\ range_cmp a (mkRange 1 3) = None.
Proof. exists (mkRange 0 2), (mkRange 2 3), (mkRange 7 9). cbn. repeat split; lia. Qed.

(** ** C03: slicing *)

Theorem C03_slice : forall t r, wf_text t -> proper r ->
  (rend r <= length (bytes_of t) ->
     exists t', slice t r = Ok t' /\ wf_text t'
       /\ bytes_of t' = sub (rstart r) (rend r) (bytes_of t)
       /\ text_len t' = Ok (rend r - rstart r))
  /\ (length (bytes_of t) < rend r -> slice t r = Panic).
Proof.
  intros t r W P. split.
  - intros L. destruct (slice_ok t r W P L) as (t' & E & W' & _ & _ & B). exists t'.
    split; [exact E|]. split; [exact W'|]. split; [exact B|].
    rewrite text_len_ok by exact W'. rewrite B, sub_length; auto.
  - intros L. apply slice_panic_iff; auto. lia.
Qed.
Print Assumptions C03_slice.

Theorem C03_slice_compose : forall t r1 r2 t1 t2, wf_text t ->
  slice t r1 = Ok t1 -> slice t1 r2 = Ok t2 ->
  slice t (mkRange (rstart r1 + rstart r2) (rstart r1 + rend r2)) = Ok t2.
Proof. exact slice_slice. Qed.
Print Assumptions C03_slice_compose.

Theorem C03_suffix : forall t o, wf_text t -> o <= length (bytes_of t) ->
  exists t', slice_suffix t o = Ok t' /\ wf_text t' /\ bytes_of t' = skipn o (bytes_of t).
Proof. exact slice_suffix_ok. Qed.
Print Assumptions C03_suffix.

(** Reading a view back gives its bytes when it begins and ends on character boundaries;
    two views are equal exactly when their bytes are. *)
Theorem C03_read : forall t, wf_text t ->
  aligned (owned t) (rstart (trange t)) -> aligned (owned t) (rend (trange t)) ->
  as_str t = Ok (bytes_of t).
Proof. exact as_str_ok. Qed.
Print Assumptions C03_read.

Theorem C03_whole_buffer : forall s, wf_text (as_text s) /\ bytes_of (as_text s) = s.
Proof. intros. split; [apply as_text_wf|apply as_text_bytes]. Qed.
Print Assumptions C03_whole_buffer.

Example C03_example : exists t t1 t2, wf_text t /\ slice t (mkRange 1 5) = Ok t1
  /\ slice t1 (mkRange 1 3) = Ok t2 /\ as_str t2 = Ok [12; 13].
Proof.
  exists (as_text [10; 11; 12; 13; 14; 15]). eexists. eexists.
  split; [apply as_text_wf|]. split; [reflexivity|]. split; [reflexivity|]. reflexivity.
Qed.

(** ** C04: trim.  The buffer is any list of well-formed characters, the view any run [cs] of them. *)

Theorem C04_trim : forall ws pre cs post, Forall valid_char (pre ++ cs ++ post) ->
  let t := mkText (concat (pre ++ cs ++ post))
                  (mkRange (length (concat pre)) (length (concat pre) + length (concat cs))) in
  as_str t = Ok (concat cs) /\
  exists t', trim ws t = Ok t' /\ wf_text t' /\ as_str t' = Ok (concat (strip ws cs)).
Proof.
  intros ws pre cs post V t. split; [|exact (trim_spec ws pre cs post V)].
  destruct (trim_spec (fun _ => false) pre cs post V) as (t' & E & W & S).
  destruct (as_str t) as [x| |] eqn:A.
  - f_equal. unfold as_str, str_index in A. apply guard_ok in A as [_ A]. apply guard_ok in A as [_ A].
    injection A as <-. unfold t. cbn. unfold sub. rewrite !concat_app.
    replace (length (concat pre) + length (concat cs) - length (concat pre)) with (length (concat cs)) by lia.
    rewrite skipn_app, Nat.sub_diag, skipn_all. cbn.
    rewrite firstn_app, Nat.sub_diag, firstn_all. cbn. apply app_nil_r.
  - unfold trim in E. fold t in E. rewrite A in E. discriminate.
  - unfold trim in E. fold t in E. rewrite A in E. discriminate.
Qed.
Print Assumptions C04_trim.

(** What [strip] means: a decomposition into whitespace, the rest, whitespace, the rest having
    non-whitespace ends. *)
Theorem C04_strip_meaning : forall ws cs, exists a b,
  cs = a ++ strip ws cs ++ b /\ Forall (fun c => ws c = true) a /\ Forall (fun c => ws c = true) b
  /\ (forall c, hd_error (strip ws cs) = Some c -> ws c = false)
  /\ (forall c r, strip ws cs = r ++ [c] -> ws c = false).
Proof.
  intros ws cs.
  assert (D : forall l, exists a, l = a ++ drop_ws ws l /\ Forall (fun c => ws c = true) a
                     /\ (forall c r, drop_ws ws l = c :: r -> ws c = false)).
  { induction l as [|c l (a & E & F & G)].
    - exists []. split; [reflexivity|]. split; [constructor|discriminate].
    - cbn. destruct (ws c) eqn:W.
      + exists (c :: a). split; [cbn; congruence|]. split; [constructor; auto|exact G].
      + exists []. split; [reflexivity|]. split; [constructor|]. intros. congruence. }
  destruct (D cs) as (a & E & F & G). destruct (D (rev (drop_ws ws cs))) as (b & E' & F' & G').
  exists a, (rev b). unfold strip.
  assert (E2 : drop_ws ws cs = rev (drop_ws ws (rev (drop_ws ws cs))) ++ rev b).
  { rewrite <- rev_app_distr, <- E', rev_involutive. reflexivity. }
  split; [congruence|]. split; [exact F|]. split; [now apply Forall_rev|]. split.
  - intros c H. destruct (rev (drop_ws ws (rev (drop_ws ws cs)))) as [|x r] eqn:R; [discriminate|].
    cbn in H. injection H as ->. eapply G. rewrite E2. cbn. reflexivity.
  - intros c r H. apply (f_equal (@rev _)) in H. rewrite rev_involutive, rev_app_distr in H. cbn in H.
    eapply G'. exact H.
Qed.
Print Assumptions C04_strip_meaning.

Example C04_example :
  let ws c := bytes_eqb c [32] in
  trim ws (as_text [32; 32; 97; 195; 169; 32; 98; 32]) = Ok (mkText [32; 32; 97; 195; 169; 32; 98; 32] (mkRange 2 7))
  /\ Forall valid_char [[32]; [32]; [97]; [195; 169]; [32]; [98]; [32]].
Proof. split; [reflexivity|]. repeat constructor. Qed.

(** ** C05: an edit built by calls is simultaneous splicing *)

Theorem C05_builder : forall s cs,
  ordered 0 (length s) (map repl_of_call cs) -> repls_aligned s (map repl_of_call cs) ->
  exists ops, build_edit (as_text s) cs = Ok ops
    /\ apply ops (as_text s) = Ok (splice 0 s (map repl_of_call cs)).
Proof. exact build_edit_ok. Qed.
Print Assumptions C05_builder.

Theorem C05_builder_panics : forall s cs,
  ~ ordered 0 (length s) (map repl_of_call cs) -> build_edit (as_text s) cs = Panic.
Proof. exact build_edit_panics. Qed.
Print Assumptions C05_builder_panics.

Example C05_example :
  let s := [1; 2; 3; 4; 5; 6] in
  let cs := [CReplace (mkRange 0 2) [20; 21; 22]; CInsert 3 [30]; CDelete (mkRange 4 6)] in
  ordered 0 (length s) (map repl_of_call cs) /\ repls_aligned s (map repl_of_call cs)
  /\ splice 0 s (map repl_of_call cs) = [20; 21; 22; 3; 30; 4].
Proof.
  cbn. split; [lia|]. split; [|reflexivity].
  repeat (first [apply boundary_spec; reflexivity | constructor]).
Qed.

(** ** C06: editor edits *)

Theorem C06_from_editor : forall s es,
  ordered 0 (length s) (map repl_of_vs es) -> repls_aligned s (map repl_of_vs es) ->
  exists ops, from_vs_edits (as_text s) es = Ok ops
    /\ apply ops (as_text s) = Ok (splice 0 s (map repl_of_vs es)).
Proof. exact from_vs_ok. Qed.
Print Assumptions C06_from_editor.

(** For every edit made with the builder: the edits sent to the editor give the new text, followed by the end of the old text
    that was removed (from [k] on every byte is removed, and the byte before [k] is not). *)
Theorem C06_to_editor : forall s cs ops, repls_aligned s (map repl_of_call cs) -> build_edit (as_text s) cs = Ok ops ->
  exists es new k, to_vs_edits ops = Ok es /\ ordered 0 (length s) (map repl_of_vs es) /\ apply ops (as_text s) = Ok new
    /\ splice 0 s (map repl_of_vs es) = new ++ sub k (length s) s /\ k <= length s
    /\ (forall i, k <= i -> i < length s -> removed (map repl_of_call cs) i) /\ (k = 0 \/ ~ removed (map repl_of_call cs) (k - 1)).
Proof.
  intros s cs ops A B. destruct (builder_to_vs s cs ops A B) as (es & new & k & E & O & _ & Ap & S & KL & T & L). exists es, new, k. auto 10.
Qed.
Print Assumptions C06_to_editor.

(** So the editor gets the new text exactly if the last byte of the old text is not removed (or there is none), and then it
    also survives the way back. *)
Theorem C06_round_trip : forall s cs ops, repls_aligned s (map repl_of_call cs) -> build_edit (as_text s) cs = Ok ops ->
  exists es ops' new new', to_vs_edits ops = Ok es /\ from_vs_edits (as_text s) es = Ok ops'
    /\ apply ops (as_text s) = Ok new /\ apply ops' (as_text s) = Ok new' /\ new' = splice 0 s (map repl_of_vs es)
    /\ (new' = new <-> s = [] \/ ~ removed (map repl_of_call cs) (length s - 1)).
Proof.
  intros s cs ops A B. destruct (builder_to_vs s cs ops A B) as (es & new & k & E & O & R & Ap & S & KL & T & L). destruct (from_vs_ok s es O R) as (ops' & E' & Ap').
  exists es, ops', new, (splice 0 s (map repl_of_vs es)). do 5 (split; [auto|]). rewrite S. split.
  - intros EQ. assert (LN : length (new ++ sub k (length s) s) = length new) by (f_equal; exact EQ). rewrite app_length, sub_length in LN by lia.
    destruct s as [|x s]; [left; reflexivity|right]. assert (K : k = length (x :: s)) by lia. subst k. destruct L as [L|L]; [discriminate L|exact L].
  - intros H. assert (K : k = length s). { destruct H as [-> |H]; [cbn in *; lia|]. destruct (Nat.eq_dec k (length s)) as [Q|Q]; [exact Q|]. destruct H. apply T; lia. }
    subst k. rewrite sub_empty, app_nil_r. reflexivity.
Qed.
Print Assumptions C06_round_trip.

(** The same for lists of segments from elsewhere whose copies are in order and reach the end of the text. *)
Theorem C06_segments : forall s ops, ops_ordered 0 (length s) ops -> ops_aligned s ops ->
  exists es ops' new, to_vs_edits ops = Ok es /\ ordered 0 (length s) (map repl_of_vs es) /\ from_vs_edits (as_text s) es = Ok ops'
    /\ apply ops (as_text s) = Ok new /\ apply ops' (as_text s) = Ok new /\ new = splice 0 s (map repl_of_vs es).
Proof.
  intros s ops O A. destruct (to_vs_ok s ops 0 O A (or_introl eq_refl)) as (es & E & O' & R & Ap).
  destruct (from_vs_ok s es O' R) as (ops' & E' & Ap'). exists es, ops', (splice 0 s (map repl_of_vs es)).
  repeat split; auto.
Qed.
Print Assumptions C06_segments.

(** A deletion at the end of the text is lost: the editor is told to do nothing. *)
Theorem C06_trailing_delete_refuted : exists s cs ops es new,
  build_edit (as_text s) cs = Ok ops /\ apply ops (as_text s) = Ok new
  /\ to_vs_edits ops = Ok es /\ splice 0 s (map repl_of_vs es) = s /\ new <> s.
Proof.
  exists [1; 2; 3], [CDelete (mkRange 1 3)], [Copy (mkRange 0 1)], [], [1].
  repeat split; try reflexivity. discriminate.
Qed.
Print Assumptions C06_trailing_delete_refuted.

Example C06_case : let s := [1; 2; 3; 4] in let cs := [CInsert 1 [9]; CReplace (mkRange 2 4) [7]] in
  repls_aligned s (map repl_of_call cs) /\ build_edit (as_text s) cs = Ok [Copy (mkRange 0 1); Insert [9]; Copy (mkRange 1 2); Insert [7]]
  /\ removed (map repl_of_call cs) 3 /\ ~ removed (map repl_of_call cs) 1.
Proof.
  cbn. split; [repeat (first [apply boundary_spec; reflexivity | constructor])|]. split; [reflexivity|]. split.
  - exists (mkRepl 2 4 [7]). cbn. split; [auto|lia].
  - intros (r & J & H). cbn in J. destruct J as [<-|[<-|[]]]; cbn in H; lia.
Qed.

Example C06_example :
  let s := [1; 2; 3; 4] in
  let ops := [Insert [9]; Copy (mkRange 1 2); Insert [8]; Copy (mkRange 3 4)] in
  ops_ordered 0 (length s) ops /\ ops_aligned s ops /\ apply ops (as_text s) = Ok [9; 2; 8; 4].
Proof.
  cbn. split; [lia|]. split; [|reflexivity]. repeat (first [apply boundary_spec; reflexivity | constructor]).
Qed.

(** ** C44: scaling of generated edits *)

Theorem C44_scale : forall x y n, (x <= u32_max)%N -> (y <= u32_max)%N ->
  let '(a, b) := prop_range x y in
  (scale a n <= scale b n)%N /\ (scale b n <= n)%N /\ scale u32_max n = n /\ scale 0 n = 0%N.
Proof.
  intros x y n X Y. unfold prop_range. destruct (x <? y)%N eqn:E.
  - apply N.ltb_lt in E. split; [apply scale_mono; now apply N.lt_le_incl|].
    split; [now apply scale_bound|]. split; [|reflexivity].
    unfold scale. rewrite N.mul_comm. apply N.div_mul. discriminate.
  - apply N.ltb_ge in E. split; [now apply scale_mono|].
    split; [now apply scale_bound|]. split; [|reflexivity].
    unfold scale. rewrite N.mul_comm. apply N.div_mul. discriminate.
Qed.
Print Assumptions C44_scale.

Example C44_example : scale 2147483648 10 = 5%N /\ (2147483648 <= u32_max)%N.
Proof. split; [reflexivity|discriminate]. Qed.
