(** C91: texts are searched, compared and hashed like the strings they show. *)
From Coq Require Import List Arith Bool Lia.
From Verif Require Import Base BaseFacts TextModel TextSpec TextProofs ScanModel ScanSpec ScanProofs TextOpsModel TextOpsSpec TextOpsProofs.
Import ListNotations.

(** Every search of a text answers, and answers about the string it shows, with offsets that count from the start of the
    text: the first and the last place where a string occurs, and whether there is one at all, at the start or at the end. *)
Theorem C91_search : forall t s n, shows t s ->
  (exists v, starts_with t n = Ok v /\ (v = true <-> exists r, s = n ++ r))
  /\ (exists v, ends_with t n = Ok v /\ (v = true <-> exists r, s = r ++ n))
  /\ (exists v, contains t n = Ok v /\ (v = true <-> exists i, occurs n s i))
  /\ (exists o, TextModel.find t n = Ok o /\ forall i, o = Some i <-> first_at n s i)
  /\ (exists o, rfind t n = Ok o /\ forall i, o = Some i <-> last_at n s i).
Proof.
  intros t s n E. unfold shows in E. unfold starts_with, ends_with, contains, TextModel.find, rfind. rewrite E. cbn [bind].
  split; [exists (is_prefix n s); split; [reflexivity|]; rewrite is_prefix_spec; split; intros (r & R); exists r; congruence|].
  split; [exists (is_suffix n s); split; [reflexivity|apply suffix_spec]|].
  split; [|split].
  - eexists. split; [reflexivity|]. destruct (find_sub n s) as [i|] eqn:F.
    + split; [intros _|reflexivity]. apply find_sub_occurs in F. exists i. exact (proj1 F).
    + split; [discriminate|]. intros (i & O). destruct (proj1 (find_sub_never n s) F i O).
  - exists (find_sub n s). split; [reflexivity|]. intros i. apply find_sub_occurs.
  - exists (rfind_sub n s). split; [reflexivity|]. intros i. split; [apply rfind_some|]. intros L. destruct (rfind_sub n s) as [j|] eqn:R.
    + f_equal. exact (last_at_fun n s j i (rfind_some n s j R) L).
    + destruct (rfind_none n s R i (proj1 L)).
Qed.
Print Assumptions C91_search.

(** What was found can be sliced: the slice shows the needle. *)
Theorem C91_found : forall t s n i, wf_text t -> shows t s -> utf8 s -> utf8 n -> n <> [] ->
  (TextModel.find t n = Ok (Some i) \/ rfind t n = Ok (Some i)) ->
  exists t', slice t (mkRange i (i + length n)) = Ok t' /\ wf_text t' /\ shows t' n.
Proof.
  intros t s n i W E US UN NE F. apply (found_slice t s n i W E US UN NE). destruct (C91_search t s n E) as (_ & _ & _ & (o & FO & F1) & (o' & RO & F2)). destruct F as [F|F].
  - rewrite F in FO. injection FO as <-. exact (proj1 (proj1 (F1 i) eq_refl)).
  - rewrite F in RO. injection RO as <-. exact (proj1 (proj1 (F2 i) eq_refl)).
Qed.
Print Assumptions C91_found.

(** Texts are equal exactly when they show the same string, whatever their buffers; comparing with a string, on either side, is
    comparing with a text that shows it.  The order is that of a dictionary.  Equal texts have equal hashes. *)
Theorem C91_compare : forall t u s r, shows t s -> shows u r ->
  (exists v, text_eqb t u = Ok v /\ (v = true <-> s = r) /\ text_eqb u t = Ok v /\ text_str_eqb t r = Ok v /\ str_text_eqb r t = Ok v)
  /\ (exists c, text_cmp t u = Ok c /\ text_str_cmp t r = Ok c /\ text_cmp u t = Ok (CompOpp c)
       /\ (c = Eq <-> s = r) /\ (c = Lt <-> precedes s r) /\ (c = Gt <-> precedes r s))
  /\ (forall H (hash : bytes -> H), s = r -> exists h, text_hash hash t = Ok h /\ text_hash hash u = Ok h).
Proof.
  intros t u s r E F. unfold shows in E, F. unfold text_eqb, str_text_eqb, text_str_eqb, text_cmp, text_str_cmp, text_hash. fold (as_str t). rewrite E, F. cbn [bind]. split; [|split].
  - exists (bytes_eqb s r). split; [reflexivity|]. split; [apply bytes_eqb_spec|]. split; [|auto]. f_equal. destruct (bytes_eqb s r) eqn:Q; [apply bytes_eqb_spec in Q; subst r; apply bytes_eqb_spec; reflexivity|].
    destruct (bytes_eqb r s) eqn:Q'; [apply bytes_eqb_spec in Q'; subst r; rewrite (proj2 (bytes_eqb_spec s s) eq_refl) in Q; discriminate Q|reflexivity].
  - exists (bytes_cmp s r). split; [reflexivity|]. split; [reflexivity|]. split; [f_equal; apply cmp_sym|]. split; [apply cmp_eq|]. split; [apply cmp_lt|apply cmp_gt].
  - intros H hash ->. exists (hash r). auto.
Qed.
Print Assumptions C91_compare.

(** The order is total and transitive. *)
Theorem C91_order : forall t u v s r q, shows t s -> shows u r -> shows v q ->
  (text_cmp t t = Ok Eq)
  /\ (text_cmp t u = Ok Lt -> text_cmp u v = Ok Lt -> text_cmp t v = Ok Lt)
  /\ (text_cmp t u = Ok Eq -> text_cmp t v = text_cmp u v).
Proof.
  intros t u v s r q E F G. unfold shows in *. unfold text_cmp. rewrite E, F, G. cbn [bind]. split; [f_equal; apply cmp_eq; reflexivity|]. split.
  - intros A B. injection A as A. injection B as B. f_equal. exact (cmp_trans _ _ _ A B).
  - intros A. injection A as A. apply cmp_eq in A. subst r. reflexivity.
Qed.
Print Assumptions C91_order.

(** Copying a text to a buffer keeps its string, and buffers are equal to the strings they hold. *)
Theorem C91_buffers : forall t s, shows t s -> exists buf, buf_of_text t = Ok buf /\ shows (as_text buf) s
  /\ forall r, exists v, buf_str_eqb buf r = Ok v /\ str_buf_eqb r buf = Ok v /\ (v = true <-> s = r).
Proof.
  intros t s E. exists s. split; [exact E|]. assert (A : as_str (as_text s) = Ok s).
  { rewrite as_str_ok; [rewrite as_text_bytes; reflexivity|apply as_text_wf|left; reflexivity|right; left; reflexivity]. }
  split; [exact A|]. intros r. exists (bytes_eqb s r). unfold str_buf_eqb, buf_str_eqb, text_str_eqb. fold (as_str (as_text s)). rewrite A. cbn [bind]. split; [reflexivity|]. split; [reflexivity|]. apply bytes_eqb_spec.
Qed.
Print Assumptions C91_buffers.

(** A view of [xabab] from 1 to 5, and another buffer with the same string. *)
Definition view := mkText [120; 97; 98; 97; 98; 121] (mkRange 1 5).
Example C91_case : wf_text view /\ shows view [97; 98; 97; 98] /\ utf8 [97; 98; 97; 98] /\ TextModel.find view [97; 98] = Ok (Some 0) /\ rfind view [97; 98] = Ok (Some 2) /\ rfind view [120] = Ok None
  /\ rfind view [] = Ok (Some 4) /\ TextModel.find view [] = Ok (Some 0) /\ ends_with view [97; 98] = Ok true /\ ends_with view [98; 121] = Ok false /\ starts_with view [120] = Ok false
  /\ text_eqb view (as_text [97; 98; 97; 98]) = Ok true /\ text_cmp view (as_text [97; 99]) = Ok Lt /\ text_cmp view (as_text [97; 98]) = Ok Gt /\ text_str_cmp view [97; 98; 97; 98] = Ok Eq
  /\ (exists t', slice view (mkRange 2 4) = Ok t' /\ shows t' [97; 98]).
Proof.
  split; [split; cbn; lia|]. split; [reflexivity|]. split; [apply ascii_utf8; repeat constructor; lia|]. repeat (split; [reflexivity|]). exists (mkText (owned view) (mkRange 3 5)). split; reflexivity.
Qed.

(** "Every text can be compared with itself" is false: a text may begin inside of a character.  Slicing there is accepted, and so are
    its length and the question whether it is empty; everything else panics. *)
Theorem C91_cut_refuted : exists t, slice (as_text [195; 169]) (mkRange 1 2) = Ok t /\ text_len t = Ok 1 /\ text_is_empty t = false
  /\ text_eqb t t = Panic /\ text_cmp t t = Panic /\ contains t [] = Panic /\ rfind t [] = Panic /\ text_str_eqb t [] = Panic /\ buf_of_text t = Panic.
Proof. exists (mkText [195; 169] (mkRange 1 2)). vm_compute. auto 10. Qed.
Print Assumptions C91_cut_refuted.
