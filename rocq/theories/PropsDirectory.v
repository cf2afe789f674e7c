(** C90: the test of a directory of sources with recorded trees. *)
From Coq Require Import List Arith Bool Lia String.
From Verif Require Import Base BaseFacts TextModel LexModel ConvertModel FallLang DumpModel NameData NameModel ScanSpec ScanProofs HarnessModel HarnessSpec HarnessProofs PropsDump PropsHarness DirectoryModel DirectorySpec DirectoryProofs.
Import ListNotations.
Open Scope list_scope.

Section Check.
  Variable space : bytes -> bool.
  Variable info : nat -> option (bytes * bool).
  Variable debug : bytes -> bytes.
  Variables (L : language) (fuel : nat).
  Local Notation run := (check_directory space info debug L fuel).

  (** Every file that is listed and is called [stem.rs] can be read and parsed. *)
  Definition parsed_sources (names : list bytes) (d : directory) : Prop :=
    forall stem, listed names stem -> exists txt tr, d (source_name stem) = Some txt /\ tree_of info debug L fuel txt tr.

  (** [stem.txt] has the tree of [stem.rs], but for whitespace at its ends. *)
  Definition up_to_date (d : directory) (stem : bytes) : Prop :=
    exists txt tr e, d (source_name stem) = Some txt /\ tree_of info debug L fuel txt tr /\ d (record_name stem) = Some e /\ same_inside space e tr.

  (** Rust's strings are valid: the trees and the records. *)
  Definition valid_strings (names : list bytes) (d : directory) : Prop :=
    (forall stem txt tr, listed names stem -> d (source_name stem) = Some txt -> tree_of info debug L fuel txt tr -> utf8 tr) /\ forall stem e, listed names stem -> d (record_name stem) = Some e -> utf8 e.

  Lemma fresh_iff : forall names d stem, valid_strings names d -> listed names stem -> (fresh space info debug L fuel d stem <-> up_to_date d stem).
  Proof.
    intros names d stem (VT & VR) LI. split; intros (txt & tr & e & E & T & R & S); exists txt, tr, e; (split; [exact E|]; split; [exact T|]; split; [exact R|]).
    - apply (trim_same space e tr (VR stem e LI R) (VT stem txt tr LI E T)). exact S.
    - apply (trim_same space e tr (VR stem e LI R) (VT stem txt tr LI E T)). exact S.
  Qed.

(** Without rewriting, the test passes exactly when the record of every source is up to date; nothing is written.  Files with
    other names do not matter, nor does the order of the files. *)
Theorem C90_check : forall names d, parsed_sources names d -> valid_strings names d ->
  ((forall stem, listed names stem -> up_to_date d stem) -> exists d', run false names d = Ok d' /\ same_files d' d)
  /\ (forall stem, listed names stem -> ~ up_to_date d stem -> run false names d = Panic)
  /\ ((exists d', run false names d = Ok d' /\ same_files d' d) \/ run false names d = Panic).
Proof.
  intros names d S V. destruct (checked space info debug L fuel names d S) as [(A & R)|((stem & LS & N) & E)].
  - split; [intros _; exact R|]. split; [|left; exact R]. intros s LI NU. destruct (NU (proj1 (fresh_iff names d s V LI) (A s LI))).
  - split; [|split; [intros _ _ _; exact E|right; exact E]]. intros A. destruct (N (proj2 (fresh_iff names d stem V LS) (A stem LS))).
Qed.

(** With rewriting, the test passes.  Only records of sources are written, each with the tree of its source unless it is up to
    date already. *)
Theorem C90_rewrite : forall names d, parsed_sources names d -> valid_strings names d -> exists d', run true names d = Ok d'
  /\ (forall stem, listed names stem -> up_to_date d stem -> d' (record_name stem) = d (record_name stem))
  /\ (forall stem txt tr, listed names stem -> ~ up_to_date d stem -> d (source_name stem) = Some txt -> tree_of info debug L fuel txt tr -> d' (record_name stem) = Some tr)
  /\ (forall n, (forall stem, listed names stem -> n <> record_name stem) -> d' n = d n).
Proof.
  intros names d S V. destruct (rewritten space info debug L fuel names d S) as (d' & E & H1 & H2). exists d'. split; [exact E|]. split; [|split; [|exact H2]].
  - intros stem LI U. apply (fresh_iff names d stem V LI) in U. destruct U as (txt & tr & e & ES & TR & R & EQ). rewrite (H1 stem txt tr LI ES TR), R. cbn [refreshed]. rewrite (proj2 (diff_iff space e tr) EQ). reflexivity.
  - intros stem txt tr LI N ES TR. rewrite (H1 stem txt tr LI ES TR). unfold refreshed. destruct (d (record_name stem)) as [e|] eqn:R; [|reflexivity]. destruct (compute_diff space e tr) eqn:D; [reflexivity|].
    destruct N. apply (fresh_iff names d stem V LI). exists txt, tr, e. repeat split; auto. apply diff_iff. exact D.
Qed.

(** After rewriting, the test passes without it, and rewriting again changes nothing; if it passed before, nothing was
    written. *)
Theorem C90_then_check : forall names d, parsed_sources names d -> exists d', run true names d = Ok d'
  /\ (exists d'', run false names d' = Ok d'' /\ same_files d'' d')
  /\ (exists d'', run true names d' = Ok d'' /\ same_files d'' d')
  /\ (forall d0, run false names d = Ok d0 -> same_files d' d).
Proof.
  intros names d S. destruct (rewritten space info debug L fuel names d S) as (d' & E & H1 & H2). exists d'. split; [exact E|].
  assert (SRC : forall s, d' (source_name s) = d (source_name s)) by (intros s; apply H2; intros; apply source_record).
  assert (S' : parsed_sources names d') by (intros s LI; rewrite SRC; exact (S s LI)).
  assert (REC : forall n, (exists stem, listed names stem /\ n = record_name stem) \/ forall stem, listed names stem -> n <> record_name stem).
  { intros n. clear - names. induction names as [|p rest IH]; [right; intros stem (_ & [])|]. destruct (is_source p) eqn:Q.
    - apply source_is in Q. destruct Q as (s & NE & ->). destruct (list_eq_dec Nat.eq_dec n (record_name s)) as [->|N]; [left; exists s; split; [split; [exact NE|left; reflexivity]|reflexivity]|].
      destruct IH as [(s' & (N' & I) & ->)|A]; [left; exists s'; split; [split; [exact N'|right; exact I]|reflexivity]|]. right. intros s' (N' & [X|X]); [apply source_inj in X; congruence|apply A; split; assumption].
    - destruct IH as [(s' & LI & ->)|A]; [left; exists s'; split; [apply listed_skip; assumption|reflexivity]|right; intros s' LI; apply A; apply (listed_skip p); assumption]. }
  split; [|split].
  - destruct (checked space info debug L fuel names d' S') as [(_ & R)|((stem & LS & N) & _)]; [exact R|]. destruct N. destruct (S stem LS) as (txt & tr & ES & TR). exists txt, tr, (refreshed space tr (d (record_name stem))).
    rewrite SRC. split; [exact ES|]. split; [exact TR|]. split; [exact (H1 stem txt tr LS ES TR)|apply refreshed_trim].
  - destruct (rewritten space info debug L fuel names d' S') as (d'' & E' & H1' & H2'). exists d''. split; [exact E'|]. intros n. destruct (REC n) as [(stem & LI & ->)|N]; [|exact (H2' n N)].
    destruct (S stem LI) as (txt & tr & ES & TR). rewrite (H1' stem txt tr LI); [|rewrite SRC; exact ES|exact TR]. rewrite (H1 stem txt tr LI ES TR), refreshed_twice. reflexivity.
  - intros d0 E0 n. destruct (REC n) as [(stem & LI & ->)|N]; [|exact (H2 n N)].
    destruct (checked space info debug L fuel names d S) as [(A & _)|(_ & X)]; [|unfold check_directory in E0; rewrite X in E0; discriminate E0].
    destruct (A stem LI) as (txt & tr & e & ES & TR & R & EQ). rewrite (H1 stem txt tr LI ES TR), R. cbn [refreshed]. rewrite (proj2 (diff_iff space e tr) EQ). reflexivity.
Qed.

(** The order in which the files are listed does not matter, nor do files that are not sources. *)
Theorem C90_order : forall names names' rewrite d, (forall stem, listed names stem <-> listed names' stem) -> parsed_sources names d ->
  (exists d1 d2, run rewrite names d = Ok d1 /\ run rewrite names' d = Ok d2 /\ same_files d1 d2)
  \/ (run rewrite names d = Panic /\ run rewrite names' d = Panic).
Proof.
  intros names names' rewrite d EQ S. assert (S' : parsed_sources names' d) by (intros s LI; apply S; apply EQ; exact LI). destruct rewrite.
  - left. destruct (rewritten space info debug L fuel names d S) as (d1 & E1 & A1 & B1). destruct (rewritten space info debug L fuel names' d S') as (d2 & E2 & A2 & B2). exists d1, d2. split; [exact E1|]. split; [exact E2|].
    intros n. assert (REC : (exists stem, listed names stem /\ n = record_name stem) \/ forall stem, listed names stem -> n <> record_name stem).
    { clear - names. induction names as [|p rest IH]; [right; intros stem (_ & [])|]. destruct (is_source p) eqn:Q.
      - apply source_is in Q. destruct Q as (s & NE & ->). destruct (list_eq_dec Nat.eq_dec n (record_name s)) as [->|N]; [left; exists s; split; [split; [exact NE|left; reflexivity]|reflexivity]|].
        destruct IH as [(s' & (N' & I) & ->)|A]; [left; exists s'; split; [split; [exact N'|right; exact I]|reflexivity]|]. right. intros s' (N' & [X|X]); [apply source_inj in X; congruence|apply A; split; assumption].
      - destruct IH as [(s' & LI & ->)|A]; [left; exists s'; split; [apply listed_skip; assumption|reflexivity]|right; intros s' LI; apply A; apply (listed_skip p); assumption]. }
    destruct REC as [(stem & LI & ->)|N].
    + destruct (S stem LI) as (txt & tr & ES & TR). rewrite (A1 stem txt tr LI ES TR), (A2 stem txt tr (proj1 (EQ stem) LI) ES TR). reflexivity.
    + rewrite (B1 n N). symmetry. apply B2. intros s LI. apply N. apply EQ. exact LI.
  - destruct (checked space info debug L fuel names d S) as [(A & d1 & E1 & F1)|((s & LS & N) & E1)]; destruct (checked space info debug L fuel names' d S') as [(A' & d2 & E2 & F2)|((s' & LS' & N') & E2)].
    + left. exists d1, d2. split; [exact E1|]. split; [exact E2|]. intros n. rewrite F1, F2. reflexivity.
    + destruct (N' (A s' (proj2 (EQ s') LS'))).
    + destruct (N (A' s (proj1 (EQ s) LS))).
    + right. auto.
Qed.

(** A source that cannot be read, like a directory with such a name, makes the test fail, also with rewriting. *)
Theorem C90_unreadable : forall rewrite names d stem, listed names stem -> d (source_name stem) = None ->
  (forall s, listed names s -> s <> stem -> exists txt tr, d (source_name s) = Some txt /\ tree_of info debug L fuel txt tr) -> run rewrite names d = Panic.
Proof. intros rewrite names d stem LS M O. exact (missing space info debug L fuel rewrite names d stem LS M O). Qed.
End Check.
Print Assumptions C90_check.
Print Assumptions C90_rewrite.
Print Assumptions C90_then_check.
Print Assumptions C90_order.
Print Assumptions C90_unreadable.

(** ** Concrete directories *)
Definition b (s : string) : bytes := FallLang.text_of s.
Definition files (l : list (string * bytes)) : directory :=
  fun n => match List.find (fun x => bytes_eqb n (b (fst x))) l with Some (_, c) => Some c | None => None end.
Definition real_run := check_directory ascii_space (info_of fall_names) quoted fall_lang 5000.
Definition tree_y : bytes := lines ["FALL_FILE"; "  ERROR"; "    IDENT ""y"""]%string.
Definition tree_x : bytes := lines ["FALL_FILE"; "  ERROR"; "    IDENT ""x"""]%string.
Definition passes (r : res directory) : bool := match r with Ok _ => true | _ => false end.
Definition holds (r : res directory) (n : string) : option bytes := match r with Ok d => d (b n) | _ => None end.

(** The contents of [b] may differ in whitespace at the ends, [c.rs.bak] and the directory [d.rs.d] are not looked at. *)
Definition four := ["b.rs"; "a.b.rs"; "c.rs.bak"; "d.rs.d"; "b.txt"]%string.
Definition good_dir := files [("b.rs"%string, b "y"); ("b.txt"%string, [10] ++ tree_y ++ [32]); ("a.b.rs"%string, b "x"); ("a.b.txt"%string, tree_x); ("c.rs.bak"%string, b "?")].
Definition bad_dir := files [("b.rs"%string, b "y"); ("b.txt"%string, tree_x); ("a.b.rs"%string, b "x")].
Example C90_case :
  listed (map b four) (b "a.b") /\ listed (map b four) (b "b") /\ ~ listed (map b four) (b "c.rs") /\
  parsed_sources (info_of fall_names) quoted fall_lang 5000 (map b four) good_dir /\ valid_strings (info_of fall_names) quoted fall_lang 5000 (map b four) good_dir /\
  passes (real_run false (map b four) good_dir) = true /\ holds (real_run true (map b four) good_dir) "b.txt" = Some ([10] ++ tree_y ++ [32])
  /\ passes (real_run false (map b four) bad_dir) = false
  /\ holds (real_run true (map b four) bad_dir) "b.txt" = Some tree_y /\ holds (real_run true (map b four) bad_dir) "a.b.txt" = Some tree_x
  /\ holds (real_run true (map b four) bad_dir) "a.txt" = None /\ passes (real_run true (map b ["d.rs"%string]) bad_dir) = false.
Proof.
  split; [split; [discriminate|vm_compute; auto]|]. split; [split; [discriminate|vm_compute; auto]|].
  split; [intros (_ & H); apply (in_map (fun x => x)) in H; vm_compute in H; intuition discriminate|]. rewrite <- and_assoc. split; [|vm_compute; auto 10].
  assert (TY : forall s : bytes, (match parse_file fall_lang 5000 s with Ok (f, _) => match dump_file (info_of fall_names) quoted f with Ok tr => forallb (fun x => x <? 128) tr | _ => false end | _ => false end) = true ->
    exists tr, tree_of (info_of fall_names) quoted fall_lang 5000 s tr /\ utf8 tr).
  { intros s E. destruct (parse_file fall_lang 5000 s) as [(f & inc)| |] eqn:P; try discriminate E. destruct (dump_file (info_of fall_names) quoted f) as [tr| |] eqn:D; try discriminate E. exists tr. split; [exists f, inc; auto|].
    apply ascii_utf8. apply Forall_forall. intros x I. rewrite forallb_forall in E. apply Nat.ltb_lt. exact (E x I). }
  destruct (TY (b "y")) as (ty & T1 & U1); [vm_compute; reflexivity|]. destruct (TY (b "x")) as (tx & T2 & U2); [vm_compute; reflexivity|].
  assert (WHO : forall stem, listed (map b four) stem -> stem = b "b" \/ stem = b "a.b").
  { intros stem (NE & I). unfold four in I. cbn [map In] in I.
    assert (NOT : forall n, is_source n = false -> n = source_name stem -> False).
    { intros n Q E. subst n. rewrite (proj2 (source_is (source_name stem)) (ex_intro _ stem (conj NE eq_refl))) in Q. discriminate Q. }
    destruct I as [I|[I|[I|[I|[I|[]]]]]]; try (exfalso; refine (NOT _ _ I); vm_compute; reflexivity); [left|right]; symmetry; apply source_inj; exact I. }
  assert (E1 : good_dir (source_name (b "b")) = Some (b "y")) by (vm_compute; reflexivity). assert (E2 : good_dir (source_name (b "a.b")) = Some (b "x")) by (vm_compute; reflexivity).
  split; [|split].
  - intros stem LI. destruct (WHO stem LI) as [->| ->]; [exists (b "y"), ty|exists (b "x"), tx]; auto.
  - intros stem txt tr LI E T. destruct (WHO stem LI) as [->| ->]; [rewrite E1 in E|rewrite E2 in E]; injection E as <-; [rewrite (tree_fun _ _ _ _ _ _ _ T T1)|rewrite (tree_fun _ _ _ _ _ _ _ T T2)]; assumption.
  - intros stem e LI E. apply ascii_utf8. apply Forall_forall. intros x I. apply Nat.ltb_lt. revert x I. rewrite <- forallb_forall.
    destruct (WHO stem LI) as [->| ->]; vm_compute in E; injection E as <-; vm_compute; reflexivity.
Qed.

(** "Every file whose name ends in [.rs] is checked" is false: [.rs] has no extension. *)
Theorem C90_hidden_refuted : passes (real_run false [b ".rs"] (files [(".rs"%string, b "y"); (".txt"%string, tree_x)])) = true.
Proof. vm_compute. reflexivity. Qed.
Print Assumptions C90_hidden_refuted.

(** "A record is checked only if there is a source for it" is true, but the converse is not looked at: a record without its
    source is left alone. *)
Theorem C90_orphan_refuted : passes (real_run false [b "a.txt"] (files [("a.txt"%string, b "?")])) = true.
Proof. vm_compute. reflexivity. Qed.
Print Assumptions C90_orphan_refuted.
