(** C89: tests of the actions of the editor. *)
From Coq Require Import List Arith Bool Lia String.
From Verif Require Import Base BaseFacts TextModel TextSpec EditModel TreeModel TreeSpec TreeProofs LexModel ScanModel ScanSpec ScanProofs RelexChars GrammarModel GrammarData ParserModel ConvertModel FileEditSpec
  AnalysisModel AnalysisSpec ViewProofs HarnessModel HarnessSpec HarnessProofs PropsHarness EditorModel EditorSpec EditorProofs FallLang
  FallEditModel FallEditSpec FallEditProofs ExtractProofs PropsFallEdit RustEditModel RustEditSpec RustEditProofs RustLang PropsRustEdit PropsScan ActionTestModel ActionTestSpec ActionTestProofs.
Import ListNotations.
Open Scope list_scope.
Local Notation length := List.length.

(** [f] is what the text [txt] is parsed to; [grammar_file] and [rust_file] say the same with some bound on the steps. *)
Definition parses (L : language) (fuel : nat) (txt : bytes) (f : file) : Prop := exists inc, parse_file L fuel txt = Ok (f, inc).

Lemma parses_text : forall L fuel txt f, parses L fuel txt f -> parse_text L fuel txt = Ok f.
Proof. intros L fuel txt f (inc & P). unfold parse_text. rewrite P. reflexivity. Qed.

Lemma markable_utf8 : forall a b c, markable a b c -> utf8 (a ++ b ++ c).
Proof. intros a b c (UA & UB & UC & _). repeat apply utf8_app; assumption. Qed.

Lemma swap_utf8 : forall f T ws o ops out, wf_file f T -> char_tree (f_text f) T -> utf8 (f_text f) -> o <= length (f_text f) ->
  swap f ws o true = Ok (Some (Applied ops)) -> apply ops (as_text (f_text f)) = Ok out -> utf8 out.
Proof.
  intros f T ws o ops out WF CT U LE S A.
  destruct (swap_ok f T ws WF CT o LE) as [(c & l & x & l1 & l2 & r1 & r2 & ops' & _ & _ & E2 & (p & q & t1 & A1 & R1) & (p' & q' & t2 & A2 & R2) & L1 & L2 & L3 & L4 & A')|(_ & _ & E2)]; rewrite S in E2; [|discriminate E2].
  injection E2 as <-. rewrite A in A'. injection A' as ->. injection R1 as -> ->. injection R2 as -> ->. destruct (CT _ _ _ _ A1). destruct (CT _ _ _ _ A2).
  repeat apply utf8_app; apply aligned_sub; auto using aligned_0, aligned_end; lia.
Qed.

(** A test without two markers fails, whatever the language and the action. *)
Theorem C89_unmarked : forall space parse actions apply_action id text after, utf8 text ->
  (forall i j, i < j -> ~ (nth_error text i = Some 94 /\ nth_error text j = Some 94)) ->
  check_context_action space parse actions apply_action id text after = Panic /\ check_no_context_action parse actions id text = Panic.
Proof.
  intros space parse actions apply_action id text after U N. assert (UM : utf8 marker) by (apply ascii_utf8; repeat constructor; lia).
  assert (O : forall i, occurs marker text i -> nth_error text i = Some 94).
  { intros i (x & y & -> & <-). rewrite nth_error_app2 by lia. rewrite Nat.sub_diag. reflexivity. }
  assert (E : extract_range text marker = Panic).
  { apply (C43_range_panics text marker U UM ltac:(discriminate)). intros i j LE (OI & OJ). change (length marker) with 1 in LE. apply (N i j ltac:(lia)). auto. }
  unfold check_context_action, check_no_context_action. rewrite E. auto.
Qed.
Print Assumptions C89_unmarked.

(** * Grammar files *)
Section Fall.
  Variables (space : bytes -> bool) (L : language) (fuel : nat) (ws : nat -> bool).
  Variables (a b c : bytes) (f : file).
  Hypothesis MK : markable a b c.
  Hypothesis PA : parses L fuel (a ++ b ++ c) f.
  Hypothesis GF : grammar_file L (a ++ b ++ c) f.

  Let r := selection a b.
  Lemma fall_sel : rstart r <= rend r /\ rend r <= length (a ++ b ++ c) /\ rstart r <= length (a ++ b ++ c).
  Proof. unfold r, selection. cbn [rstart rend]. rewrite !app_length. lia. Qed.

  Lemma fall_alternatives_is : apply_context_action f ws r swap_alternatives_id = (o <- swap_alternatives f (rstart r) true ;; match o with None => Ok None | Some x => e <- into_edit x ;; Ok (Some e) end).
  Proof.
    unfold apply_context_action, apply_default_context_action, apply_action, default_actions. cbn [find_first fst snd]. change (bytes_eqb swap_id swap_alternatives_id) with false. cbn [bind find_first fall_actions fst snd].
    change (bytes_eqb swap_alternatives_id swap_alternatives_id) with true. reflexivity.
  Qed.
  Lemma fall_extract_is : apply_context_action f ws r extract_rule_id = (o <- extract_rule f r true ;; match o with None => Ok None | Some x => e <- into_edit x ;; Ok (Some e) end).
  Proof.
    unfold apply_context_action, apply_default_context_action, apply_action, default_actions. cbn [find_first fst snd]. change (bytes_eqb swap_id extract_rule_id) with false. cbn [bind find_first fall_actions fst snd].
    change (bytes_eqb swap_alternatives_id extract_rule_id) with false. change (bytes_eqb extract_rule_id extract_rule_id) with true. reflexivity.
  Qed.

  Lemma fall_out : forall id ops out, apply_context_action f ws r id = Ok (Some ops) -> apply ops (as_text (a ++ b ++ c)) = Ok out -> utf8 out.
  Proof.
    intros id ops out A AP. destruct (grammar_facts L _ f GF) as (T & WF & TX & CT & NF). destruct fall_sel as (S1 & S2 & S3). pose proof (markable_utf8 a b c MK) as U. rewrite <- TX in *.
    destruct (C56_actions L _ f ws r GF S1 S2) as (ids & _ & _ & IN & _ & _ & H).
    destruct (H id) as [(I & _)|(_ & E)]; [|rewrite A in E; discriminate E]. specialize (IN id I).
    destruct IN as [<-|[<-|[<-|[]]]].
    - unfold apply_context_action, apply_default_context_action, apply_action, default_actions in A. cbn [find_first fst snd] in A. change (bytes_eqb swap_id swap_id) with true in A. cbn iota in A. destruct (swap f ws (rstart r) true) as [[[|ops']|]| |] eqn:E; cbn [bind into_edit] in A; try discriminate A.
      injection A as <-. exact (swap_utf8 f T ws (rstart r) ops' out WF CT U S3 E AP).
    - rewrite fall_alternatives_is in A. destruct (swap_alternatives_ok f T WF CT (rstart r) S3) as [(l & x & ops' & S & _ & E & AP')|(_ & _ & E)]; rewrite E in A; cbn [bind into_edit] in A; [|discriminate A].
      injection A as <-. rewrite AP in AP'. injection AP' as ->. exact (exchanged_utf8 f T WF CT U _ _ _ S).
    - rewrite fall_extract_is in A. destruct (extract_rule_ok f T WF CT NF r S1 S2) as [(e & m & rule & ops' & X & MV & ER & IR & M1 & M2 & M3 & _ & E & AP')|(_ & _ & E)]; rewrite E in A; cbn [bind into_edit] in A; [|discriminate A].
      injection A as <-. rewrite AP in AP'. injection AP' as ->. apply (extracted_utf8 f T WF CT U r e m rule X MV); [exact (kids_valid f T WF _ _ (proj1 (kids_of_in f T WF _ _ _ IR)))|lia|lia].
  Qed.

(** A test of an action on a marked text always ends.  It succeeds exactly when the action is in the list for the selection, and
    the text after applying it is the expected one but for whitespace at the ends.  The test that an action is missing
    succeeds exactly when no test of the action can succeed. *)
Theorem C89_fall : forall id after, utf8 after ->
  let test := fall_action_test space L fuel ws id (marked a b c) in
  let no_test := fall_no_action_test L fuel ws id (marked a b c) in
  (test after = Ok tt \/ test after = Panic) /\ (no_test = Ok tt \/ no_test = Panic)
  /\ (test after = Ok tt <-> exists ids ops out, context_actions f ws (selection a b) = Ok ids /\ In id ids
        /\ apply_context_action f ws (selection a b) id = Ok (Some ops) /\ apply ops (as_text (a ++ b ++ c)) = Ok out /\ same_inside space after out)
  /\ (no_test = Ok tt <-> exists ids, context_actions f ws (selection a b) = Ok ids /\ ~ In id ids)
  /\ (no_test = Ok tt <-> forall expected, utf8 expected -> test expected = Panic).
Proof.
  intros id after UA test no_test. subst test no_test. fold r. destruct fall_sel as (S1 & S2 & S3). destruct (grammar_facts L _ f GF) as (T & WF & TX & CT & NF).
  destruct (C56_actions L _ f ws r GF S1 S2) as (ids & AC & _ & _ & _ & _ & H). pose proof (parses_text _ _ _ _ PA) as PT.
  unfold fall_action_test, fall_no_action_test. rewrite (no_action_run _ (fun f => context_actions f ws) a b c f ids MK PT AC id).
  destruct (H id) as [(I & ops & out & A & AP)|(N & A)].
  - pose proof (fall_out id ops out A AP) as UO. rewrite (proj2 (in_actions id ids) I).
    pose proof (fun x => action_run space _ (fun f => context_actions f ws) (fun f => apply_context_action f ws) a b c f ids MK PT TX AC id ops out x I A AP) as R.
    destruct (R after UA UO) as (R1 & R2). split; [exact R1|]. split; [right; reflexivity|]. split; [|split].
    + rewrite R2. split; [intros SI; exists ids, ops, out; auto|]. intros (ids' & ops' & out' & _ & _ & A' & AP' & SI). rewrite A in A'. injection A' as <-. rewrite AP in AP'. injection AP' as <-. exact SI.
    + split; [discriminate|]. intros (ids' & E & N). rewrite AC in E. injection E as <-. contradiction.
    + split; [discriminate|]. intros X. destruct (R out UO UO) as (_ & R3). rewrite (X out UO) in R3. destruct R3 as (_ & R3). discriminate R3. exists [], [], [], [], (chars out). cbn [List.app]. rewrite List.app_nil_r. auto.
  - pose proof (fun x => action_missing space _ (fun f => context_actions f ws) (fun f => apply_context_action f ws) a b c f ids MK PT AC id x N) as R.
    destruct (existsb (bytes_eqb id) ids) eqn:Q; [apply in_actions in Q; contradiction|]. rewrite R. split; [right; reflexivity|]. split; [left; reflexivity|]. split; [|split].
    + split; [discriminate|]. intros (ids' & ops & out & E & I & _). rewrite AC in E. injection E as <-. contradiction.
    + split; [intros _; exists ids; auto|reflexivity].
    + split; [intros _ x _; apply R|reflexivity].
Qed.

(** Thus a test of swapping alternatives succeeds exactly when there are alternatives around the bar at the first marker, and the
    expected text has them exchanged. *)
Theorem C89_alternatives : forall after, utf8 after ->
  (fall_action_test space L fuel ws swap_alternatives_id (marked a b c) after = Ok tt
   <-> exists x y, swappable f (length a) x y /\ same_inside space after (exchanged f x y)).
Proof.
  intros after UA. destruct (C89_fall swap_alternatives_id after UA) as (_ & _ & E & _). rewrite E. clear E. fold r. destruct fall_sel as (S1 & S2 & S3).
  destruct (C56_actions L _ f ws r GF S1 S2) as (ids & AC & _ & _ & SW & _ & H). destruct (C54_swap L _ f (rstart r) GF S3) as (_ & C2 & _).
  assert (AA : forall ops, swap_alternatives f (rstart r) true = Ok (Some (Applied ops)) -> apply_context_action f ws r swap_alternatives_id = Ok (Some ops)).
  { intros ops E. rewrite fall_alternatives_is, E. reflexivity. }
  split.
  - intros (ids' & ops & out & E & I & A & AP & SI). rewrite AC in E. injection E as <-. apply SW in I. destruct I as (x & y & S). exists x, y. split; [exact S|]. destruct (C2 x y S) as (ops' & E & AP'). rewrite (AA _ E) in A. injection A as <-.
    rewrite AP in AP'. injection AP' as <-. exact SI.
  - intros (x & y & S & SI). destruct (C2 x y S) as (ops & E & AP). exists ids, ops, (exchanged f x y). split; [exact AC|]. split; [apply SW; exists x, y; exact S|]. split; [exact (AA _ E)|]. auto.
Qed.

(** And one of extracting a rule: exactly when the marked part can be extracted, and the expected text has a new rule for it. *)
Theorem C89_extract : forall after, utf8 after ->
  (fall_action_test space L fuel ws extract_rule_id (marked a b c) after = Ok tt
   <-> exists e m rule, extractable f (selection a b) e /\ moved f (selection a b) e m /\ enclosing_rule f e rule /\ same_inside space after (extracted f m rule)).
Proof.
  intros after UA. destruct (C89_fall extract_rule_id after UA) as (_ & _ & E & _). rewrite E. clear E. fold r. destruct fall_sel as (S1 & S2 & S3).
  destruct (C56_actions L _ f ws r GF S1 S2) as (ids & AC & _ & _ & _ & SW & H). destruct (C55_extract L _ f r GF S1 S2) as (_ & C2 & _).
  assert (AA : forall ops, extract_rule f r true = Ok (Some (Applied ops)) -> apply_context_action f ws r extract_rule_id = Ok (Some ops)).
  { intros ops E. rewrite fall_extract_is, E. reflexivity. }
  split.
  - intros (ids' & ops & out & E & I & A & AP & SI). rewrite AC in E. injection E as <-. apply SW in I. destruct I as (e & X). destruct (C2 e X) as (m & rule & ops' & MV & ER & _ & _ & _ & _ & E & AP').
    exists e, m, rule. rewrite (AA _ E) in A. injection A as <-. rewrite AP in AP'. injection AP' as <-. auto.
  - intros (e & m & rule & X & MV & ER & SI). destruct (C2 e X) as (m' & rule' & ops & MV' & ER' & _ & _ & _ & _ & E & AP).
    destruct (C55_unique L _ f r e e m m' rule rule' GF X X MV MV' ER ER') as (_ & <- & <-). exists ids, ops, (extracted f m rule). split; [exact AC|]. split; [apply SW; exists e; exact X|]. split; [exact (AA _ E)|]. auto.
Qed.
End Fall.
Print Assumptions C89_fall.
Print Assumptions C89_alternatives.
Print Assumptions C89_extract.

(** * Rust files *)
Section Rust.
  Variables (space : bytes -> bool) (L : language) (fuel : nat) (ws : nat -> bool).
  Variables (a b c : bytes) (f : file).
  Hypothesis MK : markable a b c.
  Hypothesis PA : parses L fuel (a ++ b ++ c) f.
  Hypothesis RF : rust_file L (a ++ b ++ c) f.

  Let r := selection a b.
  Lemma rust_sel : rstart r <= length (a ++ b ++ c).
  Proof. unfold r, selection. cbn [rstart rend]. rewrite !app_length. lia. Qed.

  Lemma rust_braces_is : rust_apply_context_action f ws r add_braces_id = (o <- add_use_braces f (rstart r) true ;; match o with None => Ok None | Some x => e <- into_edit x ;; Ok (Some e) end).
  Proof.
    unfold rust_apply_context_action, apply_default_context_action, apply_action, default_actions. cbn [find_first fst snd]. change (bytes_eqb swap_id add_braces_id) with false. cbn [bind find_first rust_actions fst snd].
    change (bytes_eqb add_braces_id add_braces_id) with true. reflexivity.
  Qed.
  Lemma rust_impl_is : rust_apply_context_action f ws r add_impl_id = (o <- add_impl f (rstart r) true ;; match o with None => Ok None | Some x => e <- into_edit x ;; Ok (Some e) end).
  Proof.
    unfold rust_apply_context_action, apply_default_context_action, apply_action, default_actions. cbn [find_first fst snd]. change (bytes_eqb swap_id add_impl_id) with false. cbn [bind find_first rust_actions fst snd].
    change (bytes_eqb add_braces_id add_impl_id) with false. change (bytes_eqb add_impl_id add_impl_id) with true. reflexivity.
  Qed.

  Lemma rust_out : forall id ops out, rust_apply_context_action f ws r id = Ok (Some ops) -> apply ops (as_text (a ++ b ++ c)) = Ok out -> utf8 out.
  Proof.
    intros id ops out A AP. destruct (rust_facts L _ f RF) as (T & WF & TX & CT & NP). pose proof rust_sel as S3. pose proof (markable_utf8 a b c MK) as U. rewrite <- TX in *.
    destruct (C66_actions L _ f ws r RF S3) as (ids & _ & _ & IN & _ & _ & H).
    destruct (H id) as [(I & _)|(_ & E)]; [|rewrite A in E; discriminate E]. specialize (IN id I).
    destruct IN as [<-|[<-|[<-|[]]]].
    - unfold rust_apply_context_action, apply_default_context_action, apply_action, default_actions in A. cbn [find_first fst snd] in A.
      change (bytes_eqb swap_id swap_id) with true in A. cbn iota in A. destruct (swap f ws (rstart r) true) as [[[|ops']|]| |] eqn:E; cbn [bind into_edit] in A; try discriminate A.
      injection A as <-. exact (swap_utf8 f T ws (rstart r) ops' out WF CT U S3 E AP).
    - rewrite rust_braces_is in A. destruct (add_braces_ok f T WF CT (rstart r) S3) as [(s & ops' & S & _ & E & AP')|(_ & _ & E)]; rewrite E in A; cbn [bind into_edit] in A; [|discriminate A].
      injection A as <-. rewrite AP in AP'. injection AP' as ->. destruct S as (u & p & _ & _ & K & _). exact (braced_utf8 f T WF CT U s (kid_valid f T WF _ _ _ K)).
    - rewrite rust_impl_is in A. destruct (add_impl_ok f T WF CT (rstart r) NP S3) as [(d & name & h & g & ops' & S & GN & _ & E & AP')|(_ & _ & E)]; rewrite E in A; cbn [bind into_edit] in A; [|discriminate A].
      injection A as <-. rewrite AP in AP'. injection AP' as ->. assert (VN : valid f d /\ rs_name f d = Some name).
      { assert (K : rs_name f d = Some name) by (destruct S as [(_ & N)|(_ & _ & N)]; exact N). split; [|exact K].
        unfold rs_name in K. destruct (kid f RS_IDENT d) as [m|] eqn:Q; [|discriminate K]. unfold kid, kids_of, kids, at_node in Q. unfold valid. destruct (nth_error (f_nodes f) d) eqn:V; [apply nth_error_Some; congruence|discriminate Q]. }
      exact (with_impl_utf8 f T WF CT U d name h g (proj1 VN) (proj2 VN) GN).
  Qed.

(** The same for Rust files. *)
Theorem C89_rust : forall id after, utf8 after ->
  let test := rust_action_test space L fuel ws id (marked a b c) in
  let no_test := rust_no_action_test L fuel ws id (marked a b c) in
  (test after = Ok tt \/ test after = Panic) /\ (no_test = Ok tt \/ no_test = Panic)
  /\ (test after = Ok tt <-> exists ids ops out, rust_context_actions f ws (selection a b) = Ok ids /\ In id ids
        /\ rust_apply_context_action f ws (selection a b) id = Ok (Some ops) /\ apply ops (as_text (a ++ b ++ c)) = Ok out /\ same_inside space after out)
  /\ (no_test = Ok tt <-> exists ids, rust_context_actions f ws (selection a b) = Ok ids /\ ~ In id ids)
  /\ (no_test = Ok tt <-> forall expected, utf8 expected -> test expected = Panic).
Proof.
  intros id after UA test no_test. subst test no_test. fold r. pose proof rust_sel as S3. destruct (rust_facts L _ f RF) as (T & WF & TX & CT & NF).
  destruct (C66_actions L _ f ws r RF S3) as (ids & AC & _ & _ & _ & _ & H). pose proof (parses_text _ _ _ _ PA) as PT.
  unfold rust_action_test, rust_no_action_test. rewrite (no_action_run _ (fun f => rust_context_actions f ws) a b c f ids MK PT AC id).
  destruct (H id) as [(I & ops & out & A & AP)|(N & A)].
  - pose proof (rust_out id ops out A AP) as UO. rewrite (proj2 (in_actions id ids) I).
    pose proof (fun x => action_run space _ (fun f => rust_context_actions f ws) (fun f => rust_apply_context_action f ws) a b c f ids MK PT TX AC id ops out x I A AP) as R.
    destruct (R after UA UO) as (R1 & R2). split; [exact R1|]. split; [right; reflexivity|]. split; [|split].
    + rewrite R2. split; [intros SI; exists ids, ops, out; auto|]. intros (ids' & ops' & out' & _ & _ & A' & AP' & SI). rewrite A in A'. injection A' as <-. rewrite AP in AP'. injection AP' as <-. exact SI.
    + split; [discriminate|]. intros (ids' & E & N). rewrite AC in E. injection E as <-. contradiction.
    + split; [discriminate|]. intros X. destruct (R out UO UO) as (_ & R3). rewrite (X out UO) in R3. destruct R3 as (_ & R3). discriminate R3. exists [], [], [], [], (chars out). cbn [List.app]. rewrite List.app_nil_r. auto.
  - pose proof (fun x => action_missing space _ (fun f => rust_context_actions f ws) (fun f => rust_apply_context_action f ws) a b c f ids MK PT AC id x N) as R.
    destruct (existsb (bytes_eqb id) ids) eqn:Q; [apply in_actions in Q; contradiction|]. rewrite R. split; [right; reflexivity|]. split; [left; reflexivity|]. split; [|split].
    + split; [discriminate|]. intros (ids' & ops & out & E & I & _). rewrite AC in E. injection E as <-. contradiction.
    + split; [intros _; exists ids; auto|reflexivity].
    + split; [intros _ x _; apply R|reflexivity].
Qed.

Theorem C89_braces : forall after, utf8 after ->
  (rust_action_test space L fuel ws add_braces_id (marked a b c) after = Ok tt
   <-> exists s, bare_segment f (length a) s /\ same_inside space after (braced f s)).
Proof.
  intros after UA. destruct (C89_rust add_braces_id after UA) as (_ & _ & E & _). rewrite E. clear E. fold r. pose proof rust_sel as S3.
  destruct (C66_actions L _ f ws r RF S3) as (ids & AC & _ & _ & SW & _ & H). destruct (C61_add_braces L _ f (rstart r) RF S3) as (_ & C2 & _). rewrite rust_braces_is.
  split.
  - intros (ids' & ops & out & E & I & A & AP & SI). rewrite AC in E. injection E as <-. apply SW in I. destruct I as (s & S). exists s. split; [exact S|]. destruct (C2 s S) as (ops' & E & AP'). rewrite E in A. injection A as <-.
    rewrite AP in AP'. injection AP' as <-. exact SI.
  - intros (s & S & SI). destruct (C2 s S) as (ops & E & AP). exists ids, ops, (braced f s). split; [exact AC|]. split; [apply SW; exists s; exact S|]. rewrite E. auto.
Qed.

Theorem C89_impl : forall after, utf8 after ->
  (rust_action_test space L fuel ws add_impl_id (marked a b c) after = Ok tt
   <-> exists d name params args, type_here f (length a) d name /\ generics f d params args /\ same_inside space after (with_impl f d name params args)).
Proof.
  intros after UA. destruct (C89_rust add_impl_id after UA) as (_ & _ & E & _). rewrite E. clear E. fold r. pose proof rust_sel as S3.
  destruct (C66_actions L _ f ws r RF S3) as (ids & AC & _ & _ & _ & SW & H). destruct (C62_add_impl L _ f (rstart r) RF S3) as (_ & C2 & _). rewrite rust_impl_is.
  split.
  - intros (ids' & ops & out & E & I & A & AP & SI). rewrite AC in E. injection E as <-. apply SW in I. destruct I as (d & name & S). destruct (C2 d name S) as (params & args & ops' & G & E & AP'). exists d, name, params, args.
    rewrite E in A. injection A as <-. rewrite AP in AP'. injection AP' as <-. auto.
  - intros (d & name & params & args & S & G & SI). destruct (C2 d name S) as (params' & args' & ops & G' & E & AP).
    assert (Q : params = params' /\ args = args') by exact (generics_fun f d _ _ _ _ G G').
    destruct Q as (<- & <-). exists ids, ops, (with_impl f d name params args). split; [exact AC|]. split; [apply SW; exists d, name; exact S|]. rewrite E. auto.
Qed.
End Rust.
Print Assumptions C89_rust.
Print Assumptions C89_braces.
Print Assumptions C89_impl.

(** ** The tests that are shipped *)
Definition fall_test := fall_action_test ascii_space fall_lang 5000 fall_ws.
Definition rust_test := rust_action_test ascii_space rust_lang 5000 rust_ws.
Definition rust_no_test := rust_no_action_test rust_lang 5000 rust_ws.

(** lang/fall/src/editor/actions/extract_rule.rs 58-86, swap_alternatives.rs 47-56 *)
Theorem C89_shipped_fall :
  fall_test extract_rule_id (t "
tokenizer { number r""\d+""}
pub rule foo { ^bar baz^ }
") (t "
tokenizer { number r""\d+""}
pub rule foo { new_rule }

rule new_rule {
  bar baz
}
") = Ok tt
  /\ fall_test extract_rule_id (t "
tokenizer { number r""\d+""}
pub rule foo { foo ^bar baz^ quux }
") (t "
tokenizer { number r""\d+""}
pub rule foo { foo new_rule quux }

rule new_rule {
  bar baz
}
") = Ok tt
  /\ fall_test swap_alternatives_id (t "
tokenizer { number r""\d+""}
pub rule foo { bar ^^| baz }
") (t "
tokenizer { number r""\d+""}
pub rule foo { baz | bar }
") = Ok tt.
Proof. vm_compute. auto. Qed.
Print Assumptions C89_shipped_fall.

(** lang/rust/src/editor/actions.rs 27-36 and 90-119 *)
Theorem C89_shipped_rust :
  rust_test add_braces_id (t "
use foo::^^bar;
") (t "
use foo::{bar};
") = Ok tt
  /\ rust_test add_impl_id (t "
struct ^^Foo<X, Y: Clone> {}
") (t "
struct Foo<X, Y: Clone> {}

impl<X, Y: Clone> Foo<X, Y> {

}
") = Ok tt
  /\ rust_test swap_id (t "struct Foo<X,^^ Y: Clone> {}") (t "struct Foo<Y: Clone, X> {}") = Ok tt
  /\ rust_no_test swap_id (t "struct Foo<X, Y: Clone,^^> {}") = Ok tt.
Proof. vm_compute. auto. Qed.
Print Assumptions C89_shipped_rust.

(** The hypotheses hold of them; a wrong expectation or selection fails. *)
Example C89_case :
  (markable (t "rule a { b ") [] (t "| c }") /\ exists f, parses fall_lang 5000 (t "rule a { b | c }") f /\ grammar_file fall_lang (t "rule a { b | c }") f)
  /\ (markable (t "use foo::") [] (t "bar;") /\ exists f, parses rust_lang 5000 (t "use foo::bar;") f /\ rust_file rust_lang (t "use foo::bar;") f)
  /\ fall_test swap_alternatives_id (t "rule a { b ^^| c }") (t "rule a { c | b } ") = Ok tt
  /\ fall_test swap_alternatives_id (t "rule a { b ^^| c }") (t "rule a { b | c }") = Panic
  /\ fall_test swap_alternatives_id (t "rule a { ^^b | c }") (t "rule a { c | b }") = Panic
  /\ fall_no_action_test fall_lang 5000 fall_ws swap_alternatives_id (t "rule a { ^^b | c }") = Ok tt
  /\ fall_no_action_test fall_lang 5000 fall_ws swap_alternatives_id (t "rule a { b ^^| c }") = Panic
  /\ rust_test add_braces_id (t "^^use foo::bar;") (t "use foo::{bar};") = Ok tt
  /\ rust_test add_braces_id (t "use foo::^bar;") (t "use foo::{bar};") = Panic
  /\ rust_no_test add_braces_id (t "use foo::^bar;") = Panic.
Proof.
  assert (MA : forall a b c, forallb (fun x => (x <? 94)%nat || ((94 <? x) && (x <? 128))%nat) (a ++ b) = true -> forallb (fun x => (x <? 128)%nat) c = true -> markable a b c).
  { intros a b c H C. rewrite forallb_app in H. apply andb_true_iff in H. destruct H as (HA & HB).
    assert (S : forall s, forallb (fun x => (x <? 94)%nat || ((94 <? x) && (x <? 128))%nat) s = true -> utf8 s /\ ~ In 94 s).
    { intros s F. rewrite forallb_forall in F. split.
      - apply ascii_utf8. apply Forall_forall. intros x I. specialize (F x I). apply orb_true_iff in F. destruct F as [F|F]; [apply Nat.ltb_lt in F; lia|]. apply andb_true_iff in F. destruct F as (_ & F). apply Nat.ltb_lt in F. lia.
      - intros I. specialize (F 94 I). discriminate F. }
    destruct (S a HA). destruct (S b HB). split; [assumption|]. split; [assumption|]. split; [|auto]. apply ascii_utf8. apply Forall_forall. intros x I. rewrite forallb_forall in C. apply Nat.ltb_lt. exact (C x I). }
  split; [|split].
  - split; [apply MA; vm_compute; reflexivity|]. destruct (grammar_case (t "rule a { b | c }")) as (f & inc & P & G); [vm_compute; reflexivity|vm_compute; reflexivity|]. exists f. split; [exists inc; exact P|exact G].
  - split; [apply MA; vm_compute; reflexivity|]. destruct (rust_case (t "use foo::bar;")) as (f & inc & P & G); [vm_compute; reflexivity|vm_compute; reflexivity|]. exists f. split; [exists inc; exact P|exact G].
  - vm_compute. auto 10.
Qed.

(** "A test can be written for every text and selection" is false: a circumflex of the text before the selection is taken for a
    marker.  The action is there, but its test fails; and the test that it is missing succeeds. *)
Theorem C89_circumflex_refuted :
  rust_value (t "const A: u8 = 1 ^ 2; use foo::bar;") (fun f => rust_context_actions f rust_ws (mkRange 30 30)) = Some (Ok [add_braces_id])
  /\ rust_test add_braces_id (t "const A: u8 = 1 ^ 2; use foo::^^bar;") (t "const A: u8 = 1 ^ 2; use foo::{bar};") = Panic
  /\ rust_no_test add_braces_id (t "const A: u8 = 1 ^ 2; use foo::^^bar;") = Ok tt.
Proof. vm_compute. auto. Qed.
Print Assumptions C89_circumflex_refuted.
