(** Proofs about the test that the generated parsers are up to date. *)
From Coq Require Import List Arith Bool Lia.
From Verif Require Import Base BaseFacts TextModel TextSpec TextProofs ScanSpec ScanProofs RegexProofs ToolModel ToolProofs HarnessModel HarnessProofs PropModel FreshModel FreshSpec.
Import ListNotations.
Open Scope list_scope.

Section Lines.
  Variable space : bytes -> bool.
  Hypothesis CR : space [13] = true.

  Local Notation te := (trim_end space).
  Local Notation solid := (filter (fun l : bytes => match l with [] => false | _ => true end)).

  (** ** The end of a line *)
  Lemma end_split : forall cs, exists pad, cs = rev (drop_while space (rev cs)) ++ pad /\ Forall (fun c => space c = true) pad.
  Proof.
    intros cs. destruct (drop_split space (rev cs)) as (a & E & A). exists (rev a). split; [|apply Forall_rev; exact A].
    rewrite <- rev_app_distr. rewrite <- E. rewrite rev_involutive. reflexivity.
  Qed.

  Lemma te_chars : forall l, chars (te l) = rev (drop_while space (rev (chars l))).
  Proof.
    intros l. unfold trim_end. apply chars_chunks. destruct (end_split (chars l)) as (pad & E & _). pose proof (chunked_chars l) as C. rewrite E in C.
    exact (chunked_mid [] _ pad C).
  Qed.

  Lemma drop_head : forall cs c r, drop_while space cs = c :: r -> space c = false.
  Proof. induction cs as [|x cs IH]; intros c r E; cbn [drop_while] in E; [discriminate E|]. destruct (space x) eqn:X; [exact (IH _ _ E)|]. injection E as <- _. exact X. Qed.

  Lemma te_without : forall l, without_end space l (te l).
  Proof.
    intros l. destruct (end_split (chars l)) as (pad & E & A). exists pad. rewrite te_chars. split; [exact E|]. split; [exact A|].
    intros cs c H. apply (f_equal (@rev bytes)) in H. rewrite rev_involutive, rev_app_distr in H. exact (drop_head _ _ _ H).
  Qed.

  Lemma without_te : forall l m, without_end space l m -> m = te l.
  Proof.
    intros l m (pad & E & A & H). rewrite <- (chars_all m). unfold trim_end. rewrite E, rev_app_distr, (drop_spaces _ _ _ (Forall_rev A)).
    destruct (rev (chars m)) as [|c r] eqn:R.
    - cbn [drop_while rev]. apply (f_equal (@rev bytes)) in R. rewrite rev_involutive in R. rewrite R. reflexivity.
    - assert (C : chars m = rev r ++ [c]) by (rewrite <- (rev_involutive (chars m)), R; reflexivity). cbn [drop_while]. rewrite (H _ _ C). rewrite <- R, rev_involutive. reflexivity.
  Qed.

  Lemma te_twice : forall l, te (te l) = te l.
  Proof.
    intros l. symmetry. apply without_te. exists []. rewrite List.app_nil_r. split; [reflexivity|]. split; [constructor|].
    destruct (te_without l) as (_ & _ & _ & H). exact H.
  Qed.

  Lemma te_incl : forall l, incl (te l) l.
  Proof.
    intros l b I. destruct (te_without l) as (pad & E & _). rewrite <- (chars_all l), E, concat_app. apply in_or_app. left. rewrite chars_all. exact I.
  Qed.

  Lemma te_nil : te [] = [].
  Proof. reflexivity. Qed.

  Lemma te_cr : forall l, te (strip_cr l) = te l.
  Proof.
    intros l. unfold strip_cr. destruct (rev l) as [|x r] eqn:R; [reflexivity|]. destruct (Nat.eq_dec x 13) as [->|N].
    - assert (E : l = rev r ++ [13]) by (rewrite <- (rev_involutive l), R; reflexivity). rewrite E. unfold trim_end. rewrite (chars_app_ascii (rev r) 13 [] eq_refl).
      change (chars [13]) with [[13]]. rewrite rev_app_distr. cbn [rev app drop_while]. rewrite CR. reflexivity.
    - do 13 (destruct x as [|x]; [reflexivity|]). destruct x; [congruence|reflexivity].
  Qed.

  (** ** Lines *)
  Lemma lines_last : forall p cur, ~ In 10 p -> lines_from cur p = match cur ++ p with [] => [] | _ => [cur ++ p] end.
  Proof.
    induction p as [|b p IH]; intros cur N; cbn [lines_from]; [rewrite List.app_nil_r; reflexivity|].
    destruct (b =? 10) eqn:B; [apply Nat.eqb_eq in B; subst b; destruct N; left; reflexivity|]. rewrite IH by (intros I; apply N; right; exact I). rewrite <- app_assoc. reflexivity.
  Qed.
  Lemma lines_next : forall p cur r, ~ In 10 p -> lines_from cur (p ++ 10 :: r) = strip_cr (cur ++ p) :: lines_from [] r.
  Proof.
    induction p as [|b p IH]; intros cur r N; cbn [lines_from app]; [rewrite List.app_nil_r, Nat.eqb_refl; reflexivity|].
    destruct (b =? 10) eqn:B; [apply Nat.eqb_eq in B; subst b; destruct N; left; reflexivity|]. rewrite IH by (intros I; apply N; right; exact I). rewrite <- app_assoc. reflexivity.
  Qed.

  Lemma lines_te : forall ls t, in_lines ls t -> solid (map te (str_lines t)) = solid (map te ls).
  Proof.
    intros ls t H. unfold str_lines. induction H as [l N|l ls t N H IH].
    - rewrite (lines_last l [] N). cbn [app]. destruct l; reflexivity.
    - change (l ++ [10] ++ t) with (l ++ 10 :: t). rewrite (lines_next l [] t N). cbn [app map]. rewrite te_cr. cbn [filter]. rewrite IH. reflexivity.
  Qed.

  Lemma has_lines : forall t, exists ls, in_lines ls t.
  Proof.
    induction t as [|b t (ls & H)]; [exists [[]]; constructor; intros []|]. destruct (Nat.eq_dec b 10) as [->|N].
    - exists ([] :: ls). exact (more_lines [] ls t ltac:(intros []) H).
    - destruct H as [l M|l ls t M H].
      + exists [b :: l]. constructor. intros [E|I]; [congruence|exact (M I)].
      + exists ((b :: l) :: ls). apply (more_lines (b :: l)); [intros [E|I]; [congruence|exact (M I)]|exact H].
  Qed.

  Lemma content_is : forall t ls, content space t ls <-> ls = solid (map te (str_lines t)).
  Proof.
    intros t ls. split.
    - intros (lines & stripped & H & F & ->). rewrite (lines_te _ _ H). f_equal. clear H. induction F as [|x y l l' W F IH]; [reflexivity|]. cbn [map]. rewrite (without_te _ _ W), IH. reflexivity.
    - intros ->. destruct (has_lines t) as (lines & H). exists lines, (map te lines). split; [exact H|]. split; [|rewrite (lines_te _ _ H); reflexivity].
      clear H. induction lines as [|l lines IH]; constructor; [apply te_without|exact IH].
  Qed.

  Lemma join_lines : forall ls, ls <> [] -> Forall (fun l => ~ In 10 l) ls -> in_lines ls (HarnessModel.join [10] ls).
  Proof.
    induction ls as [|l ls IH]; intros NE F; [congruence|]. apply Forall_cons_iff in F. destruct F as (N & F). cbn [HarnessModel.join]. destruct ls as [|l' ls]; [constructor; exact N|].
    apply more_lines; [exact N|]. apply IH; [discriminate|exact F].
  Qed.

  Lemma line_no_break : forall s cur l, ~ In 10 cur -> In l (lines_from cur s) -> ~ In 10 l.
  Proof.
    induction s as [|b s IH]; intros cur l N I; cbn [lines_from] in I.
    - destruct cur; [destruct I|]. destruct I as [<-|[]]. exact N.
    - destruct (b =? 10) eqn:B.
      + destruct I as [<-|I]; [|apply (IH [] l); [intros []|exact I]]. intros J. apply N. unfold strip_cr in J. destruct (rev cur) as [|x r] eqn:R; [exact J|].
        destruct (Nat.eq_dec x 13) as [->|X]; [apply in_rev; rewrite R; right; apply in_rev; exact J|]. do 13 (destruct x as [|x]; [exact J|]). destruct x; [congruence|exact J].
      + apply (IH (cur ++ [b]) l); [|exact I]. intros J. apply in_app_or in J. destruct J as [J|[J|[]]]; [exact (N J)|]. apply Nat.eqb_neq in B. congruence.
  Qed.

  (** The text of the content has that content. *)
  Lemma content_join : forall t ls, content space t ls -> content space (HarnessModel.join [10] ls) ls /\ trim_all_ends space t = HarnessModel.join [10] ls.
  Proof.
    intros t ls C. apply content_is in C. split; [|rewrite C; reflexivity]. apply content_is.
    assert (F : Forall (fun l => ~ In 10 l /\ te l = l /\ l <> []) ls).
    { rewrite C. apply Forall_forall. intros l I. apply filter_In in I. destruct I as (I & S). apply in_map_iff in I. destruct I as (m & <- & I).
      split; [intros J; apply (line_no_break t [] m); [intros []|exact I|exact (te_incl m _ J)]|]. split; [apply te_twice|]. intros E. rewrite E in S. discriminate S. }
    destruct ls as [|l ls]; [reflexivity|].
    rewrite (lines_te (l :: ls)); [|apply join_lines; [discriminate|apply Forall_forall; intros x I; rewrite Forall_forall in F; apply (F x I)]].
    clear C. induction F as [|x r (_ & T & NE) F IH]; [reflexivity|]. cbn [map filter]. rewrite T. destruct x; [congruence|]. rewrite <- IH. reflexivity.
  Qed.

  Lemma content_fun : forall t ls ls', content space t ls -> content space t ls' -> ls = ls'.
  Proof. intros t ls ls' A B. apply content_is in A, B. congruence. Qed.
  Lemma has_content : forall t, exists ls, content space t ls.
  Proof. intros t. eexists. apply content_is. reflexivity. Qed.

  Lemma trimmed_same : forall a b, trim_all_ends space a = trim_all_ends space b <-> same_content space a b.
  Proof.
    intros a b. split.
    - intros E. destruct (has_content a) as (ls & A), (has_content b) as (ls' & B). destruct (content_join a ls A) as (A1 & A2), (content_join b ls' B) as (B1 & B2).
      rewrite A2, B2 in E. rewrite E in A1. rewrite (content_fun _ _ _ A1 B1) in A. exists ls'. auto.
    - intros (ls & A & B). rewrite (proj2 (content_join a ls A)), (proj2 (content_join b ls B)). reflexivity.
  Qed.
  Lemma trimmed_content : forall t, same_content space (trim_all_ends space t) t.
  Proof. intros t. destruct (has_content t) as (ls & C). destruct (content_join t ls C) as (A & B). exists ls. rewrite B. auto. Qed.
  Lemma same_sym : forall a b, same_content space a b -> same_content space b a.
  Proof. intros a b (ls & A & B). exists ls. auto. Qed.
End Lines.

(** ** UTF-8 *)
Section Utf.
  Variable space : bytes -> bool.
  Hypothesis CR : space [13] = true.

  Lemma utf8_chars : forall s, utf8 s <-> Forall utf8_char (chars s).
  Proof.
    intros s. split.
    - intros (cs & F & ->). rewrite chars_concat; [exact F|]. eapply Forall_impl; [|exact F]. intros c U. apply U.
    - intros F. exists (chars s). split; [exact F|]. symmetry. apply chars_all.
  Qed.
  Lemma utf8_break : utf8 [10].
  Proof. exists [[10]]. split; [|reflexivity]. constructor; [|constructor]. split; [cbn; split; [reflexivity|constructor]|]. intros b E. injection E as <-. reflexivity. Qed.
  Lemma line_utf8 : forall ls t, in_lines ls t -> utf8 t -> Forall utf8 ls.
  Proof.
    intros ls t H. induction H as [l N|l ls t N H IH]; intros U; [constructor; [exact U|constructor]|]. constructor.
    - apply utf8_chars. apply utf8_chars in U. change (l ++ [10] ++ t) with (l ++ 10 :: t) in U. rewrite (chars_app_ascii l 10 t eq_refl) in U. apply Forall_app in U. apply U.
    - apply IH. apply (utf8_ascii l 10 t); [exact U|lia].
  Qed.
  Lemma te_utf8 : forall l, utf8 l -> utf8 (trim_end space l).
  Proof.
    intros l U. destruct (te_without space l) as (pad & E & _). apply utf8_chars. apply utf8_chars in U. rewrite E in U. apply Forall_app in U. apply U.
  Qed.
  Lemma join_utf8 : forall ls, Forall utf8 ls -> utf8 (HarnessModel.join [10] ls).
  Proof.
    induction ls as [|l ls IH]; intros F; [exists []; split; [constructor|reflexivity]|]. apply Forall_cons_iff in F. destruct F as (U & F). cbn [HarnessModel.join].
    destruct ls as [|l' ls]; [exact U|]. apply utf8_app; [exact U|]. apply utf8_app; [exact utf8_break|]. exact (IH F).
  Qed.
  Lemma trim_utf8 : forall t, utf8 t -> utf8 (trim_all_ends space t).
  Proof.
    intros t U. destruct (has_lines t) as (lines & H). pose proof (line_utf8 _ _ H U) as F. change (utf8 (HarnessModel.join [10] (filter (fun l : bytes => match l with [] => false | _ => true end) (map (trim_end space) (str_lines t))))). rewrite (lines_te space CR _ _ H). apply join_utf8.
    apply Forall_forall. intros l I. apply filter_In in I. destruct I as (I & _). apply in_map_iff in I. destruct I as (m & <- & I). apply te_utf8. rewrite Forall_forall in F. exact (F m I).
  Qed.
End Utf.

(** ** One grammar *)
Section Check.
  Variable space : bytes -> bool.
  Hypothesis CR : space [13] = true.
  Variable generate : bytes -> bytes + bytes.
  Variable tests_of : bytes -> bytes.
  Variable cargo_build : option bytes -> option bytes -> option bytes -> bool.
  Variable cargo_run : option bytes -> option bytes -> option bytes -> bytes -> option bytes.
  Variable is_utf8 : bytes -> bool.
  Variables toml_text main_text : bytes.
  Variable base : bytes.
  Hypothesis GU : forall g parser, generate g = inl parser -> is_utf8 parser = true.

  Local Notation check := (check_by_path space generate tests_of cargo_build cargo_run is_utf8 toml_text main_text base).
  Local Notation rs g := (with_extension g ToolModel.s_rs).

  Definition old_text (s : fs) (g : path) : bytes := match read_to_string is_utf8 s (rs g) with Some t => t | None => [] end.
  Definition parser_of (s : fs) (g : path) : option bytes :=
    match read_to_string is_utf8 s g with Some t => match generate t with inl p => Some p | inr _ => None end | None => None end.

  Lemma read_put : forall s p t, is_utf8 t = true -> read_to_string is_utf8 (ToolModel.put s p t) p = Some t.
  Proof. intros s p t U. unfold read_to_string. rewrite put_same, U. reflexivity. Qed.

  Lemma dir_neq : forall (d : bytes) (q : path), bytes_eqb (fst q) d = false -> forall n, q <> (d, n).
  Proof. intros d q E n ->. cbn [fst] in E. rewrite (proj2 (bytes_eqb_iff d d) eq_refl) in E. discriminate E. Qed.

  Lemma check_cases : forall dir g rewrite s, (forall n, s (dir, n) = None) -> fst g <> dir ->
    exists s', check dir g rewrite s = (s', match parser_of s g with
        | None => Panic
        | Some p => if bytes_eqb (trim_all_ends space (old_text s g)) (trim_all_ends space p) then Ok tt else if rewrite then Ok tt else Panic end)
    /\ forall q, s' q = match parser_of s g with
        | None => s q
        | Some p => if bytes_eqb (trim_all_ends space (old_text s g)) (trim_all_ends space p) then s q
            else if rewrite then ToolModel.put s (rs g) (trim_all_ends space p) q else s q end.
  Proof.
    intros dir g rewrite s FR ND. unfold check_by_path, parser_of. fold (old_text s g).
    destruct (read_to_string is_utf8 s g) as [t|] eqn:R; [|exists s; auto]. assert (U : is_utf8 t = true) by (unfold read_to_string in R; destruct (s g) as [x|]; [|discriminate R]; destruct (is_utf8 x) eqn:X; [|discriminate R]; injection R as <-; exact X).
    set (tmp := (dir, s_grammar_fall)). assert (NE : rs tmp <> tmp) by (unfold tmp; vm_compute; intros E; congruence).
    assert (CL : forall s1, (forall q, (forall n, q <> (dir, n)) -> s1 q = s q) -> forall q, without_dir dir s1 q = s q).
    { intros s1 H q. unfold without_dir. destruct (bytes_eqb (fst q) dir) eqn:E; [|apply H; apply dir_neq; exact E]. apply bytes_eqb_iff in E. destruct q as (d & n). cbn [fst] in E. subst d. symmetry. apply FR. }
    assert (P1 : forall q, (forall n, q <> (dir, n)) -> ToolModel.put s tmp t q = s q) by (intros q N; apply put_other; intros E; exact (N s_grammar_fall E)).
    unfold process, read_file. cbn [run]. rewrite put_same, U. destruct (generate t) as [p|m] eqn:G.
    - cbn [run]. rewrite (read_put _ _ _ (GU _ _ G)).
      assert (P2 : forall q, (forall n, q <> (dir, n)) -> ToolModel.put (ToolModel.put s tmp t) (rs tmp) p q = s q).
      { intros q N. rewrite put_other; [exact (P1 q N)|]. intros E. exact (N _ E). }
      destruct (bytes_eqb (trim_all_ends space (old_text s g)) (trim_all_ends space p)); [eexists; split; [reflexivity|apply CL; exact P2]|].
      destruct rewrite; eexists; (split; [reflexivity|]); [|apply CL; exact P2]. intros q. unfold ToolModel.put at 1 4. destruct (path_eqb (rs g) q); [reflexivity|]. apply CL. exact P2.
    - cbn [run]. eexists. split; [reflexivity|]. apply CL. exact P1.
  Qed.

  Hypothesis GUTF : forall t, is_utf8 t = true <-> utf8 t.
  Local Notation makes := (makes generate is_utf8).
  Local Notation holds := (holds is_utf8).
  Local Notation up_to_date := (up_to_date space generate is_utf8).

  Lemma makes_iff : forall s g p, makes s g p <-> parser_of s g = Some p.
  Proof.
    intros s g p. unfold FreshSpec.makes, parser_of, read_to_string. split.
    - intros (t & S & U & G). rewrite S, U, G. reflexivity.
    - intros H. destruct (s g) as [t|]; [|discriminate H]. destruct (is_utf8 t) eqn:U; [|discriminate H]. exists t. destruct (generate t) as [q|m]; [|discriminate H]. injection H as ->. auto.
  Qed.
  Lemma holds_iff : forall s g t, holds s (rs g) t <-> t = old_text s g.
  Proof.
    intros s g t. unfold FreshSpec.holds, old_text, read_to_string. split.
    - intros [(S & U)|(N & ->)]; [rewrite S, U; reflexivity|]. destruct (s (rs g)) as [x|]; [|reflexivity]. rewrite (N x eq_refl). reflexivity.
    - intros ->. destruct (s (rs g)) as [x|]; [|right; split; [intros x E; discriminate E|reflexivity]]. destruct (is_utf8 x) eqn:U; [left; auto|right]. split; [intros y E; injection E as <-; exact U|reflexivity].
  Qed.
  Lemma fresh_iff : forall s g, up_to_date s g <-> exists p, parser_of s g = Some p /\ bytes_eqb (trim_all_ends space (old_text s g)) (trim_all_ends space p) = true.
  Proof.
    intros s g. split.
    - intros (p & old & M & H & SC). apply makes_iff in M. apply holds_iff in H. subst old. exists p. split; [exact M|]. apply bytes_eqb_iff. apply (trimmed_same space CR). exact SC.
    - intros (p & M & E). apply bytes_eqb_iff in E. apply (trimmed_same space CR) in E. exists p, (old_text s g). rewrite makes_iff, holds_iff. auto.
  Qed.

  Lemma same_parser : forall s s' g, s g = s' g -> parser_of s g = parser_of s' g.
  Proof. intros s s' g E. unfold parser_of, read_to_string. rewrite E. reflexivity. Qed.
  Lemma same_old : forall s s' g, s (rs g) = s' (rs g) -> old_text s g = old_text s' g.
  Proof. intros s s' g E. unfold old_text, read_to_string. rewrite E. reflexivity. Qed.
  Lemma same_fresh : forall s s' g, s g = s' g -> s (rs g) = s' (rs g) -> up_to_date s g -> up_to_date s' g.
  Proof. intros s s' g A B H. apply fresh_iff in H. apply fresh_iff. rewrite <- (same_parser s s' g A), <- (same_old s s' g B). exact H. Qed.

  Local Notation check_all := (check_grammars space generate tests_of cargo_build cargo_run is_utf8 toml_text main_text base).

  (** Checking one grammar *)
  Lemma one_checked : forall dir g s, (forall n, s (dir, n) = None) -> fst g <> dir ->
    exists s' r, check dir g false s = (s', r) /\ (forall q, s' q = s q) /\ ((r = Ok tt /\ up_to_date s g) \/ (r = Panic /\ ~ up_to_date s g)).
  Proof.
    intros dir g s FR ND. destruct (check_cases dir g false s FR ND) as (s' & E & Q). eexists s', _. split; [exact E|]. rewrite fresh_iff. destruct (parser_of s g) as [p|].
    - destruct (bytes_eqb _ _) eqn:B; (split; [exact Q|]); [left; eauto|right]. split; [reflexivity|]. intros (p' & E' & B'). injection E' as <-. congruence.
    - split; [exact Q|]. right. split; [reflexivity|]. intros (p' & E' & _). discriminate E'.
  Qed.

  (** Rewriting one parser *)
  Lemma one_rewritten : forall dir g s, (forall n, s (dir, n) = None) -> fst g <> dir ->
    (forall p, makes s g p -> exists s', check dir g true s = (s', Ok tt) /\ (forall q, q <> rs g -> s' q = s q) /\ (rs g <> g -> up_to_date s' g) /\ (up_to_date s g -> forall q, s' q = s q))
    /\ ((forall p, ~ makes s g p) -> exists s', check dir g true s = (s', Panic) /\ forall q, s' q = s q).
  Proof.
    intros dir g s FR ND. destruct (check_cases dir g true s FR ND) as (s' & E & Q). split.
    - intros p M. pose proof M as M'. apply makes_iff in M. rewrite M in E, Q. exists s'. destruct (bytes_eqb (trim_all_ends space (old_text s g)) (trim_all_ends space p)) eqn:B.
      + split; [exact E|]. split; [intros q _; apply Q|]. split; [|intros _; exact Q]. intros _. apply (same_fresh s); [symmetry; apply Q|symmetry; apply Q|]. apply fresh_iff. eauto.
      + split; [exact E|]. split; [intros q N; rewrite Q; apply put_other; exact N|]. split.
        * intros NG. destruct M' as (t & S & U & G). exists p, (trim_all_ends space p). split; [exists t; rewrite Q, (put_other _ _ _ _ (fun e => NG (eq_sym e))); auto|].
          split; [left; rewrite Q, put_same; split; [reflexivity|]; apply GUTF, (trim_utf8 space CR), GUTF; exact (GU _ _ G)|]. apply (trimmed_content space CR).
        * intros F. apply fresh_iff in F. destruct F as (p' & E' & B'). rewrite M in E'. injection E' as <-. congruence.
    - intros N. destruct (parser_of s g) as [p|] eqn:P; [destruct (N p); apply makes_iff; exact P|]. exists s'. auto.
  Qed.

  Lemma all_checked : forall dir gs s, (forall n, s (dir, n) = None) -> Forall (fun g => fst g <> dir) gs ->
    exists s' r, check_all dir false gs s = (s', r) /\ (forall q, s' q = s q) /\ ((r = Ok tt /\ Forall (up_to_date s) gs) \/ (r = Panic /\ ~ Forall (up_to_date s) gs)).
  Proof.
    intros dir gs. induction gs as [|g gs IH]; intros s FR F; cbn [check_grammars]; [exists s, (Ok tt); auto|]. apply Forall_cons_iff in F. destruct F as (ND & F).
    destruct (one_checked dir g s FR ND) as (s1 & r1 & E1 & Q1 & [(-> & H1)|(-> & H1)]); rewrite E1.
    - destruct (IH s1 (fun n => eq_trans (Q1 (dir, n)) (FR n)) F) as (s' & r & E & Q & H). exists s', r. split; [exact E|]. split; [intros q; rewrite Q; apply Q1|].
      assert (EQ : Forall (up_to_date s1) gs <-> Forall (up_to_date s) gs).
      { split; apply Forall_impl; intros x; apply same_fresh; solve [apply Q1|symmetry; apply Q1]. }
      destruct H as [(-> & H)|(-> & H)]; [left|right]; (split; [reflexivity|]); [constructor; [exact H1|apply EQ; exact H]|]. intros C. apply H, EQ. exact (Forall_inv_tail C).
    - exists s1, Panic. split; [reflexivity|]. split; [exact Q1|]. right. split; [reflexivity|]. intros C. exact (H1 (Forall_inv C)).
  Qed.

  Lemma all_rewritten : forall dir gs s, (forall n, s (dir, n) = None) -> Forall (fun g => fst g <> dir) gs -> NoDup (map (fun g => rs g) gs) ->
    (forall g g', In g gs -> In g' gs -> rs g <> g') -> Forall (fun g => exists p, makes s g p) gs ->
    exists s', check_all dir true gs s = (s', Ok tt) /\ Forall (up_to_date s') gs /\ (forall q, ~ In q (map (fun g => rs g) gs) -> s' q = s q)
      /\ (Forall (up_to_date s) gs -> forall q, s' q = s q).
  Proof.
    intros dir gs. induction gs as [|g gs IH]; intros s FR F ND CL M; cbn [check_grammars map]; [exists s; auto|].
    apply Forall_cons_iff in F. destruct F as (D & F). apply Forall_cons_iff in M. destruct M as ((p & MP) & M). cbn [map] in ND. apply NoDup_cons_iff in ND. destruct ND as (NI & ND).
    destruct (proj1 (one_rewritten dir g s FR D) p MP) as (s1 & E1 & Q1 & U1 & K1). rewrite E1.
    assert (FR1 : forall n, s1 (dir, n) = None).
    { intros n. rewrite Q1; [apply FR|]. intros E. apply D. unfold with_extension in E. injection E as E _. symmetry. exact E. }
    assert (M1 : Forall (fun g => exists p, makes s1 g p) gs).
    { rewrite Forall_forall in M |- *. intros x I. destruct (M x I) as (px & MX). exists px. apply makes_iff. apply makes_iff in MX. rewrite <- MX. apply same_parser. apply Q1. intros E. exact (CL g x (or_introl eq_refl) (or_intror I) (eq_sym E)). }
    destruct (IH s1 FR1 F ND (fun a b A B => CL a b (or_intror A) (or_intror B)) M1) as (s' & E & U & Q & K). exists s'. split; [exact E|]. split; [|split].
    - constructor; [|exact U]. apply (same_fresh s1); [symmetry; apply Q|symmetry; apply Q; exact NI|apply U1; apply (CL g g); left; reflexivity].
      intros I. apply in_map_iff in I. destruct I as (x & E' & I). exact (CL x g (or_intror I) (or_introl eq_refl) E').
    - intros q N. rewrite Q by (intros I; apply N; right; exact I). apply Q1. intros ->. apply N. left. reflexivity.
    - intros C q. apply Forall_cons_iff in C. destruct C as (C1 & C). rewrite K; [apply K1; exact C1|]. eapply Forall_impl; [|exact C]. intros x. apply same_fresh; symmetry; apply K1; exact C1.
  Qed.
End Check.
