(** C93: the test that the generated parsers are up to date. *)
From Coq Require Import List Arith Bool Lia String.
From Verif Require Import Base BaseFacts TextModel TextSpec ScanSpec ToolModel ToolProofs FreshModel FreshSpec FreshProofs.
From Verif Require FallLang PropsHarness.
Import ListNotations.
Open Scope list_scope.

(** Two texts are told apart exactly by what their lines have besides whitespace at their ends, in order; empty lines do not count. The
    content is unique, and the text that is compared has the content itself. *)
Theorem C93_lines : forall space, space [13] = true ->
  (forall a b, trim_all_ends space a = trim_all_ends space b <-> same_content space a b)
  /\ (forall t, exists ls, content space t ls /\ content space (trim_all_ends space t) ls /\ forall ls', content space t ls' -> ls' = ls).
Proof.
  intros space CR. split; [exact (trimmed_same space CR)|]. intros t. destruct (has_content space CR t) as (ls & C). exists ls. split; [exact C|].
  destruct (content_join space CR t ls C) as (A & ->). split; [exact A|]. intros ls' C'. exact (content_fun space CR t ls' ls C' C).
Qed.
Print Assumptions C93_lines.

Lemma nodup_split : forall A (l m : list A), NoDup (l ++ m) -> NoDup l /\ NoDup m /\ forall q, In q m -> ~ In q l.
Proof.
  intros A l m. induction l as [|a l IH]; cbn [app]; intros ND; [split; [constructor|]; auto|]. apply NoDup_cons_iff in ND. destruct ND as (N & ND). destruct (IH ND) as (X & Y & Z).
  split; [constructor; [intros I; apply N; apply in_or_app; auto|exact X]|]. split; [exact Y|]. intros q I [->|J]; [apply N; apply in_or_app; auto|exact (Z q I J)].
Qed.

Section Fresh.
Variable space : bytes -> bool.
Variable generate : bytes -> bytes + bytes.
Variable tests_of : bytes -> bytes.
Variable cargo_build : option bytes -> option bytes -> option bytes -> bool.
Variable cargo_run : option bytes -> option bytes -> option bytes -> bytes -> option bytes.
Variable is_utf8 : bytes -> bool.
Variables toml_text main_text : bytes.
Variable base : bytes.
(** A carriage return is whitespace; strings, and only these, are UTF-8; the generator makes strings. *)
Hypothesis CR : space [13] = true.
Hypothesis UTF : forall t, is_utf8 t = true <-> utf8 t.
Hypothesis GEN : forall g parser, generate g = inl parser -> utf8 parser.
(** The directory for temporary files is new. *)
Variable dir : bytes.
Notation new_dir s := (forall n, s (dir, n) = None).

Notation check := (check_by_path space generate tests_of cargo_build cargo_run is_utf8 toml_text main_text base dir).
Notation test := (test_grammars_are_fresh space generate tests_of cargo_build cargo_run is_utf8 toml_text main_text base dir).
Notation makes := (makes generate is_utf8).
Notation up_to_date := (up_to_date space generate is_utf8).
Notation parser_file g := (with_extension g s_rs).

Lemma gen_utf8 : forall g parser, generate g = inl parser -> is_utf8 parser = true.
Proof. intros g p G. apply UTF. exact (GEN g p G). Qed.

(** Checking a grammar leaves all files as they were and succeeds exactly if the parser is up to date. *)
Theorem C93_check : forall g s, new_dir s -> fst g <> dir ->
  exists s' r, check g false s = (s', r) /\ (forall q, s' q = s q) /\ (r = Ok tt <-> up_to_date s g) /\ (r = Panic <-> ~ up_to_date s g).
Proof.
  intros g s FR ND. destruct (one_checked space CR generate tests_of cargo_build cargo_run is_utf8 toml_text main_text base gen_utf8 dir g s FR ND) as (s' & r & E & Q & H).
  exists s', r. split; [exact E|]. split; [exact Q|]. destruct H as [(-> & H)|(-> & H)]; repeat split; intros X; try discriminate X; try contradiction; auto.
Qed.

(** With rewriting: if the grammar can be read and has no errors, the test succeeds, the parser is up to date afterwards, no other file has
    changed, and nothing has changed if it was up to date before. Otherwise it fails and nothing has changed. *)
Theorem C93_rewrite : forall g s, new_dir s -> fst g <> dir -> parser_file g <> g ->
  (forall parser, makes s g parser -> exists s', check g true s = (s', Ok tt) /\ up_to_date s' g
    /\ (forall q, q <> parser_file g -> s' q = s q) /\ (up_to_date s g -> forall q, s' q = s q))
  /\ ((forall parser, ~ makes s g parser) -> exists s', check g true s = (s', Panic) /\ forall q, s' q = s q).
Proof.
  intros g s FR ND NG. destruct (one_rewritten space CR generate tests_of cargo_build cargo_run is_utf8 toml_text main_text base gen_utf8 UTF dir g s FR ND) as (A & B). split; [|exact B].
  intros p M. destruct (A p M) as (s' & E & Q & U & K). exists s'. auto.
Qed.

(** The whole test succeeds exactly if all parsers are up to date, and changes nothing. *)
Theorem C93_all : forall others fall s, new_dir s -> Forall (fun g => fst g <> dir) (others ++ [fall]) ->
  exists s' r, test Check others fall s = (s', r) /\ (forall q, s' q = s q) /\ (r = Ok tt <-> Forall (up_to_date s) (others ++ [fall])) /\ (r = Ok tt \/ r = Panic).
Proof.
  intros others fall s FR F. destruct (all_checked space CR generate tests_of cargo_build cargo_run is_utf8 toml_text main_text base gen_utf8 dir _ s FR F) as (s' & r & E & Q & H).
  exists s', r. split; [exact E|]. split; [exact Q|]. destruct H as [(-> & H)|(-> & H)]; (split; [split; intros X; try discriminate X; try contradiction; auto|auto]).
Qed.

(** After rewriting all parsers, those of the other grammars and that of fall itself, in either order, the test succeeds, if the grammars
    have no errors and no grammar is at the place of a parser. *)
Theorem C93_then_check : forall others fall s, new_dir s -> Forall (fun g => fst g <> dir) (others ++ [fall]) ->
  NoDup (map (fun g => parser_file g) (others ++ [fall])) -> (forall g g', In g (others ++ [fall]) -> In g' (others ++ [fall]) -> parser_file g <> g') ->
  Forall (fun g => exists parser, makes s g parser) (others ++ [fall]) ->
  (exists s1 s2 s3, test Bootstrap others fall s = (s1, Ok tt) /\ test Parsers others fall s1 = (s2, Ok tt) /\ test Check others fall s2 = (s3, Ok tt))
  /\ (exists s1 s2 s3, test Parsers others fall s = (s1, Ok tt) /\ test Bootstrap others fall s1 = (s2, Ok tt) /\ test Check others fall s2 = (s3, Ok tt)).
Proof.
  intros others fall s FR F ND CL M.
  assert (W : forall xs ys s, (forall x, In x (xs ++ ys) <-> In x (others ++ [fall])) -> NoDup (map (fun g => parser_file g) (xs ++ ys)) -> new_dir s -> Forall (fun g => exists parser, makes s g parser) (others ++ [fall]) ->
    exists s1 s2 s3, check_grammars space generate tests_of cargo_build cargo_run is_utf8 toml_text main_text base dir true xs s = (s1, Ok tt)
      /\ check_grammars space generate tests_of cargo_build cargo_run is_utf8 toml_text main_text base dir true ys s1 = (s2, Ok tt) /\ test Check others fall s2 = (s3, Ok tt)).
  { clear s FR ND M. intros xs ys s IN ND FR M. rewrite map_app in ND.
    assert (NX : NoDup (map (fun g => parser_file g) xs) /\ NoDup (map (fun g => parser_file g) ys) /\ forall q, In q (map (fun g => parser_file g) ys) -> ~ In q (map (fun g => parser_file g) xs)).
    { exact (nodup_split _ _ _ ND). }
    destruct NX as (NX & NY & DJ). rewrite Forall_forall in F, M.
    assert (INX : forall x, In x xs -> In x (others ++ [fall])) by (intros x I; apply IN; apply in_or_app; auto). assert (INY : forall x, In x ys -> In x (others ++ [fall])) by (intros x I; apply IN; apply in_or_app; auto).
    destruct (all_rewritten space CR generate tests_of cargo_build cargo_run is_utf8 toml_text main_text base gen_utf8 UTF dir xs s FR) as (s1 & E1 & U1 & Q1 & _);
      [apply Forall_forall; auto|exact NX|intros a b A B; apply CL; auto|apply Forall_forall; auto|].
    assert (KEEP : forall x l, (forall y, In y l -> In y (others ++ [fall])) -> In x (others ++ [fall]) -> ~ In x (map (fun g => parser_file g) l)).
    { intros x l H I J. apply in_map_iff in J. destruct J as (y & E & J). exact (CL y x (H y J) I E). }
    assert (FR1 : new_dir s1).
    { intros n. rewrite Q1; [apply FR|]. intros J. apply in_map_iff in J. destruct J as (y & E & J). apply (F y (INX y J)). unfold with_extension in E. injection E as E _. exact E. }
    destruct (all_rewritten space CR generate tests_of cargo_build cargo_run is_utf8 toml_text main_text base gen_utf8 UTF dir ys s1 FR1) as (s2 & E2 & U2 & Q2 & _);
      [apply Forall_forall; auto|exact NY|intros a b A B; apply CL; auto| |].
    { apply Forall_forall. intros x I. destruct (M x (INY x I)) as (p & MX). exists p. apply makes_iff. apply makes_iff in MX. rewrite <- MX. apply same_parser. apply Q1. apply KEEP; auto. }
    assert (FR2 : new_dir s2).
    { intros n. rewrite Q2; [apply FR1|]. intros J. apply in_map_iff in J. destruct J as (y & E & J). apply (F y (INY y J)). unfold with_extension in E. injection E as E _. exact E. }
    destruct (C93_all others fall s2 FR2 ltac:(apply Forall_forall; exact F)) as (s3 & r & E3 & _ & (_ & R) & _).
    exists s1, s2, s3. split; [exact E1|]. split; [exact E2|]. rewrite E3, R; [reflexivity|]. apply Forall_forall. intros x I. apply IN in I. apply in_app_or in I. destruct I as [I|I].
    - rewrite Forall_forall in U1. apply (same_fresh space CR generate is_utf8 s1); [symmetry; apply Q2; apply KEEP; auto|symmetry; apply Q2|exact (U1 x I)].
      intros J. apply (DJ _ J). apply in_map_iff. eauto.
    - rewrite Forall_forall in U2. exact (U2 x I). }
  split.
  - apply (W [fall] others s); [intros x; rewrite !in_app_iff; tauto| |exact FR|exact M].
    rewrite map_app in ND |- *. apply (NoDup_Add (a := parser_file fall) (l := map (fun g => parser_file g) others)).
    + apply (Add_app _ [] _).
    + pose proof (NoDup_remove (map (fun g => parser_file g) others) [] (parser_file fall)) as H. cbn [map app] in ND. rewrite List.app_nil_r in H. specialize (H ND). tauto.
  - apply (W others [fall] s); [tauto|exact ND|exact FR|exact M].
Qed.
End Fresh.
Print Assumptions C93_check.
Print Assumptions C93_rewrite.
Print Assumptions C93_all.
Print Assumptions C93_then_check.

(** * A small world *)

(** A check for UTF-8, and a generator that accepts grammars that do not begin with [!]; it writes a line, an empty line and the grammar. *)
Definition utf8_b (t : bytes) : bool :=
  forallb (fun c => match c with b :: r => negb (is_cont b) && forallb is_cont r && (List.length c =? char_len b) | [] => false end) (chars t).
Lemma utf8_b_iff : forall t, utf8_b t = true <-> utf8 t.
Proof.
  intros t. rewrite utf8_chars. unfold utf8_b. rewrite forallb_forall, Forall_forall. split; intros H c I; specialize (H c I).
  - destruct c as [|b r]; [discriminate H|]. apply andb_true_iff in H. destruct H as (H & L). apply andb_true_iff in H. destruct H as (B & R). apply negb_true_iff in B. apply Nat.eqb_eq in L.
    split; [split; [exact B|apply Forall_forall; apply forallb_forall; exact R]|]. intros x E. injection E as <-. exact L.
  - destruct c as [|b r]; destruct H as (V & L); [destruct V|]. destruct V as (B & R). rewrite B, (L b eq_refl), Nat.eqb_refl. rewrite andb_true_r. apply forallb_forall. apply Forall_forall. exact R.
Qed.
Definition t (s : string) : bytes := FallLang.text_of s.
Definition head_line : bytes := t "use x; ".
Definition gen1 (g : bytes) : bytes + bytes := match g with 33 :: _ => inr [109] | _ => if utf8_b g then inl (head_line ++ [10] ++ [10] ++ g) else inr [109] end.
Lemma gen1_utf8 : forall g p, gen1 g = inl p -> utf8 p.
Proof.
  intros g p E. unfold gen1 in E. assert (G : utf8_b g = true /\ p = head_line ++ [10] ++ [10] ++ g).
  { destruct g as [|b g']; [|do 33 (destruct b as [|b]; [destruct (utf8_b _) eqn:U; [injection E as <-; auto|discriminate E]|])]; [destruct (utf8_b []) eqn:U; [injection E as <-; auto|discriminate E]|].
    destruct b; [discriminate E|]. destruct (utf8_b _) eqn:U; [injection E as <-; auto|discriminate E]. }
  destruct G as (U & ->). apply ScanProofs.utf8_app; [apply utf8_b_iff; vm_compute; reflexivity|]. apply ScanProofs.utf8_app; [exact utf8_break|]. apply ScanProofs.utf8_app; [exact utf8_break|]. apply utf8_b_iff. exact U.
Qed.
Definition tmp : bytes := t "/tmp/gen-tests".
Definition check1 := check_by_path PropsHarness.ascii_space gen1 (fun g => g) (fun _ _ _ => true) (fun _ _ _ _ => None) utf8_b [1] [2] [47] tmp.
Definition test1 := test_grammars_are_fresh PropsHarness.ascii_space gen1 (fun g => g) (fun _ _ _ => true) (fun _ _ _ _ => None) utf8_b [1] [2] [47] tmp.
Definition none : fs := fun _ => None.
Definition at_src (n : string) : path := (t "src", t n).

(** cli.rs 84-100: the grammars *)
Definition shipped_others : list path :=
  [(t "../test/src", t "sexp.fall"); (t "../test/src", t "weird.fall"); (t "../test/src", t "arith.fall"); (t "../../lang/rust/syntax/src", t "rust.fall");
   (t "../../lang/json/src", t "json.fall"); (t "../../lang/bnf/src", t "bnf.fall")].
Definition shipped_fall : path := (t "../../lang/fall/syntax/src", t "fall.fall").

(** A parser with other line ends and empty lines is up to date; one that lacks a line is not, until it is rewritten; and the shipped
    grammars are at places as the theorems ask for. *)
Example C93_case :
  let g := at_src "g.fall" in let rs := at_src "g.rs" in
  let good := put (put none g (t "a
b")) rs (t "use x;
a  

b

") in let bad := put (put none g (t "a
b")) rs (t "use x;
b") in
  with_extension g s_rs = rs /\ (forall n, good (tmp, n) = None) /\ snd (check1 g false good) = Ok tt /\ snd (check1 g false bad) = Panic /\ snd (check1 g false (put none rs [])) = Panic
  /\ snd (check1 g true bad) = Ok tt /\ fst (check1 g true bad) rs = Some (t "use x;
a
b") /\ fst (check1 g true good) rs = good rs
  /\ snd (check1 g true (put none g (t "!"))) = Panic
  /\ Forall (fun g => fst g <> tmp) (shipped_others ++ [shipped_fall]) /\ NoDup (map (fun g => with_extension g s_rs) (shipped_others ++ [shipped_fall]))
  /\ (forall g g', In g (shipped_others ++ [shipped_fall]) -> In g' (shipped_others ++ [shipped_fall]) -> with_extension g s_rs <> g')
  /\ (let s := fold_right (fun g s => put s g (t "a")) none (shipped_others ++ [shipped_fall]) in
      snd (test1 Check shipped_others shipped_fall s) = Panic
      /\ snd (test1 Check shipped_others shipped_fall (fst (test1 Parsers shipped_others shipped_fall s))) = Panic
      /\ snd (test1 Check shipped_others shipped_fall (fst (test1 Bootstrap shipped_others shipped_fall (fst (test1 Parsers shipped_others shipped_fall s))))) = Ok tt).
Proof.
  split; [vm_compute; reflexivity|]. split; [intros n; reflexivity|]. do 7 (split; [vm_compute; reflexivity|]).
  split; [repeat constructor; vm_compute; congruence|]. split.
  { set (l := map _ _). vm_compute in l. subst l. repeat constructor; cbn [In]; intros H; repeat (destruct H as [H|H]; [discriminate H|]); destruct H. }
  split.
  { intros x y X Y. assert (S : forallb (fun x => forallb (fun y => negb (path_eqb (with_extension x s_rs) y)) (shipped_others ++ [shipped_fall])) (shipped_others ++ [shipped_fall]) = true) by (vm_compute; reflexivity).
    rewrite forallb_forall in S. specialize (S x X). rewrite forallb_forall in S. specialize (S y Y). intros E. apply path_eqb_iff in E. rewrite E in S. discriminate S. }
  vm_compute. auto.
Qed.

(** "What is written is what the generator made, but for the layout" is false: an empty line inside of a string literal is lost too, so
    the string is another one; and a parser with the wrong string passes for up to date. *)
Theorem C93_literal_refuted : let g := at_src "g.fall" in let s := put none g (t "const A: &str = ""a

b"";") in
  exists parser, gen1 (t "const A: &str = ""a

b"";") = inl parser /\ snd (check1 g true s) = Ok tt
  /\ fst (check1 g true s) (at_src "g.rs") = Some (t "use x;
const A: &str = ""a
b"";") /\ snd (check1 g false (fst (check1 g true s))) = Ok tt.
Proof. eexists. vm_compute. auto. Qed.
Print Assumptions C93_literal_refuted.
