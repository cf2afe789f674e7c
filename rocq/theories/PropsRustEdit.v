(** C61 to C68: what the editor does with Rust files: the context actions, typing a space, expanding a statement, breadcrumbs,
    the outline, and the comments that belong to a struct. *)
From Coq Require Import List Arith Bool Lia String.
From Verif Require Import Base BaseFacts TextModel TextSpec EditModel TreeModel TreeSpec TreeProofs SearchModel FileEditSpec EditorModel EditorSpec EditorProofs
  LexModel GrammarData WellFormed CheckProofs PropsCheck CompleteProofs ConvertModel FallLang TraversalProofs AnalysisModel AnalysisSpec ViewProofs PropsEditor PropsComplete PropsAlways
  FallEditSpec RustEditModel RustEditSpec RustEditProofs RustLang.
Import ListNotations.
Open Scope list_scope.

(** [f] is the file of the Rust text [txt], with errors in it or not. *)
Definition rust_file (L : language) (txt : bytes) (f : file) : Prop :=
  speaks_rust L /\ whole_characters L txt /\ exists fuel inc, parse_file L fuel txt = Ok (f, inc).

Lemma kid_some : forall f k n x, In x (kids f n) -> ty f x = k -> kid f k n <> None.
Proof.
  intros f k n x J E. unfold kid, kids_of. assert (A : In x (filter (fun c => ty f c =? k) (kids f n))) by (apply filter_In; split; [exact J|apply Nat.eqb_eq; exact E]).
  destruct (filter _ _); [destruct A|discriminate].
Qed.

Lemma rust_facts : forall L txt f, rust_file L txt f -> exists T, wf_file f T /\ f_text f = txt /\ char_tree (f_text f) T /\ named_params f.
Proof.
  intros L txt f (SR & WC & fuel & inc & P). assert (C60 := fun t k n => C60_rust L fuel txt f inc t k n SR P). destruct SR as [G W B PR BL TK]. destruct (C28_shipped rust_grammar sh_rust) as ((c & WFG) & PL).
  assert (LB : forall ty sp b, l_binder L ty sp b <= List.length sp) by (intros; rewrite B; apply rust_binder_le).
  destruct (parsed L c fuel txt f inc ltac:(rewrite G; exact WFG) ltac:(rewrite G; exact PL) ltac:(rewrite G; exact (rust_spellings _ W)) PR (fun b r E => blank_is b (BL b r E)) LB P) as (T & d & toks & WF & TX & _ & _ & LX & _ & SP).
  exists T. split; [exact WF|]. split; [exact TX|]. split.
  - rewrite TX. exact (parsed_chars _ _ _ _ SP (fun k => WC toks k LX)).
  - split; intros n A.
    + destruct (C60 RS_TYPE_PARAMETER RS_IDENT n ltac:(cbv; tauto) A) as (x & J & E). unfold rs_name. pose proof (kid_some f RS_IDENT n x J E). destruct (kid f RS_IDENT n); [discriminate|congruence].
    + destruct (C60 RS_LIFETIME_PARAMETER RS_LIFETIME n ltac:(cbv; tauto) A) as (x & J & E). exact (kid_some f RS_LIFETIME n x J E).
Qed.

(** ** For the concrete cases *)
Lemma rust_case : forall s, forallb (fun b => b <? 128) s = true -> (match parse_file rust_lang 5000 s with Ok _ => true | _ => false end) = true ->
  exists f inc, parse_file rust_lang 5000 s = Ok (f, inc) /\ rust_file rust_lang s f.
Proof.
  intros s A P. destruct (parse_file rust_lang 5000 s) as [(f & inc)| |] eqn:E; try discriminate P. exists f, inc. split; [reflexivity|].
  split; [exact C60_rust_lang|]. split; [|exists 5000, inc; exact E].
  apply rust_ascii. apply Forall_forall. intros x J. rewrite forallb_forall in A. apply Nat.ltb_lt. exact (A x J).
Qed.
Definition rust_after (s : bytes) (act : file -> res (option action_result)) : option bytes :=
  match parse_file rust_lang 5000 s with
  | Ok (f, _) => match act f with
      | Ok (Some (Applied ops)) => match apply ops (as_text s) with Ok b => Some b | _ => None end
      | _ => None
      end
  | _ => None
  end.
Definition rust_error_free (s : bytes) : bool := match parse_file rust_lang 5000 s with Ok (f, _) => no_error_nodes_b f | _ => false end.
Definition rust_value {A} (s : bytes) (g : file -> A) : option A := match parse_file rust_lang 5000 s with Ok (f, _) => Some (g f) | _ => None end.
Definition t (s : string) : bytes := FallLang.text_of s.

(** * C61: Add braces *)

(** At every offset of every text: the action is offered exactly when the import at the cursor has a path and neither braces
    nor a star, it is applied exactly when it is offered, and then the last segment of the path is in braces. *)
Theorem C61_add_braces : forall L txt f o, rust_file L txt f -> o <= List.length txt ->
  (add_use_braces f o false = Ok (Some Available) <-> exists s, bare_segment f o s)
  /\ (forall s, bare_segment f o s -> exists ops, add_use_braces f o true = Ok (Some (Applied ops)) /\ apply ops (as_text txt) = Ok (braced f s))
  /\ ((forall s, ~ bare_segment f o s) -> add_use_braces f o false = Ok None /\ add_use_braces f o true = Ok None).
Proof.
  intros L txt f o G LE. destruct (rust_facts L txt f G) as (T & WF & <- & CT & NP).
  destruct (add_braces_ok f T WF CT o LE) as [(s & ops & S & E1 & E2 & A)|(N & E1 & E2)]; rewrite E1, E2.
  - split; [split; [intros _; exists s; exact S|reflexivity]|]. split; [|intros N; destruct (N s S)].
    intros s' S'. rewrite <- (bare_fun f T WF o s s' S S'). exists ops. auto.
  - split; [split; [discriminate|intros (s & S); destruct (N s S)]|]. split; [intros s S; destruct (N s S)|auto].
Qed.
Print Assumptions C61_add_braces.

Example C61_case : (exists f inc, parse_file rust_lang 5000 (t "use foo::bar;") = Ok (f, inc) /\ rust_file rust_lang (t "use foo::bar;") f) /\
  rust_after (t "use foo::bar;") (fun f => add_use_braces f 10 true) = Some (t "use foo::{bar};") /\
  rust_after (t "use foo::{bar};") (fun f => add_use_braces f 10 true) = None /\ rust_after (t "use a::b; fn f( ") (fun f => add_use_braces f 4 true) = Some (t "use a::{b}; fn f( ").
Proof. split; [apply rust_case; vm_compute; reflexivity|]. vm_compute. auto. Qed.

(** "The new text has no errors if the old one has none" is false: the import may have an alias. *)
Theorem C61_alias_refuted : exists s o, rust_error_free s = true /\ rust_after s (fun f => add_use_braces f o true) = Some (t "use {foo} as bar;") /\ rust_error_free (t "use {foo} as bar;") = false.
Proof. exists (t "use foo as bar;"), 5. vm_compute. auto. Qed.
Print Assumptions C61_alias_refuted.

(** * C62: Add impl *)

(** At every offset of every text, with errors or not, the action does not panic.  It is offered exactly when there is a named
    struct or enum at the cursor.  Then an impl block for the type is added after it, with the generic parameters as they are
    declared, and with their names as the arguments, the lifetimes first. *)
Theorem C62_add_impl : forall L txt f o, rust_file L txt f -> o <= List.length txt ->
  (add_impl f o false = Ok (Some Available) <-> exists d name, type_here f o d name)
  /\ (forall d name, type_here f o d name -> exists params args ops, generics f d params args
        /\ add_impl f o true = Ok (Some (Applied ops)) /\ apply ops (as_text txt) = Ok (with_impl f d name params args))
  /\ ((forall d name, ~ type_here f o d name) -> add_impl f o false = Ok None /\ add_impl f o true = Ok None).
Proof.
  intros L txt f o G LE. destruct (rust_facts L txt f G) as (T & WF & <- & CT & NP).
  destruct (add_impl_ok f T WF CT o NP LE) as [(d & name & h & a & ops & S & GN & E1 & E2 & A)|(N & E1 & E2)]; rewrite E1, E2.
  - split; [split; [intros _; exists d, name; exact S|reflexivity]|]. split; [|intros N; destruct (N d name S)].
    intros d' n' S'. destruct (type_here_fun f T WF o d name d' n' S S') as (<- & <-). exists h, a, ops. auto.
  - split; [split; [discriminate|intros (d & n & S); destruct (N d n S)]|]. split; [intros d n S; destruct (N d n S)|auto].
Qed.
Print Assumptions C62_add_impl.

Definition generic_text := t "struct Foo<'a, X, Y: Clone> {} enum E<T> {}".
Example C62_case : (exists f inc, parse_file rust_lang 5000 generic_text = Ok (f, inc) /\ rust_file rust_lang generic_text f) /\
  rust_after generic_text (fun f => add_impl f 8 true) = Some (t "struct Foo<'a, X, Y: Clone> {}

impl<'a, X, Y: Clone> Foo<'a, X, Y> {

} enum E<T> {}") /\
  rust_after generic_text (fun f => add_impl f 36 true) = Some (t "struct Foo<'a, X, Y: Clone> {} enum E<T> {}

impl<T> E<T> {

}") /\ rust_after (t "fn f() {}") (fun f => add_impl f 4 true) = None.
Proof. split; [apply rust_case; vm_compute; reflexivity|]. vm_compute. auto. Qed.

(** "The impl is for the innermost type at the cursor" is false: a struct around an enum is preferred. *)
Definition enum_in_struct := t "struct A { x: [u8; { enum E { F } 1 }], }".
Theorem C62_innermost_refuted : exists o, rust_value enum_in_struct (fun f =>
    existsb (fun d => (ty f d =? RS_ENUM_DEF) && (rstart (rng f d) <? o) && (o <? rend (rng f d)) && match rs_name f d with Some n => bytes_eqb n (t "E") | None => false end) (seq 0 (List.length (f_nodes f)))) = Some true /\
  rust_error_free enum_in_struct = true /\
  rust_after enum_in_struct (fun f => add_impl f o true) = Some (enum_in_struct ++ t "

impl A {

}").
Proof. exists 27. vm_compute. auto. Qed.
Print Assumptions C62_innermost_refuted.

(** * C63: typing a space *)

(** After a space was typed, which is before the cursor at [o]: a semicolon is inserted exactly if the token left of the space
    is the [let] of a statement that has no equals sign and no semicolon. *)
Theorem C63_space : forall L txt f o, rust_file L txt f -> 1 <= o -> o - 1 <= List.length txt ->
  (let_begun f o -> after_space_typed f o = Ok (Some [59])) /\ (~ let_begun f o -> after_space_typed f o = Ok None).
Proof.
  intros L txt f o G L1 LE. destruct (rust_facts L txt f G) as (T & WF & <- & CT & NP).
  destruct (space_ok f T WF CT o L1 LE) as [(S & E)|(S & E)]; rewrite E; split; intros X; auto; contradiction.
Qed.
Print Assumptions C63_space.

Example C63_case : (exists f inc, parse_file rust_lang 5000 (t "fn main() { let  }") = Ok (f, inc) /\ rust_file rust_lang (t "fn main() { let  }") f) /\
  rust_value (t "fn main() { let  }") (fun f => after_space_typed f 16) = Some (Ok (Some (t ";"))) /\
  rust_value (t "fn main() { let ; }") (fun f => after_space_typed f 16) = Some (Ok None) /\
  rust_value (t "fn main() { let x = 1; }") (fun f => after_space_typed f 16) = Some (Ok None) /\
  rust_value (t "fn main() { if let x = 1 {} }") (fun f => after_space_typed f 19) = Some (Ok None).
Proof. split; [apply rust_case; vm_compute; reflexivity|]. vm_compute. auto. Qed.

(** "No semicolon is inserted if there is an equals sign after the [let]" is false: without a pattern it is not in the statement. *)
Theorem C63_no_pattern_refuted : rust_value (t "fn main() { let  = 1; }") (fun f => after_space_typed f 16) = Some (Ok (Some (t ";"))).
Proof. vm_compute. reflexivity. Qed.
Print Assumptions C63_no_pattern_refuted.

(** "It answers for every offset in the text" is false: at the start of the file it panics. *)
Theorem C63_start_refuted : forall f, after_space_typed f 0 = Panic /\ expand f 0 = Panic /\ expand f 1 = Panic /\ breadcrumbs f 0 = Panic.
Proof. intros f. repeat split; reflexivity. Qed.
Print Assumptions C63_start_refuted.

(** * C64: expanding a statement *)

(** With the cursor after the two letters of the abbreviation: nothing happens if there is no expression statement there.  If
    the statement has at least three bytes, the last three bytes of it are cut off, and everything from its start to the
    cursor is replaced by the macro that prints the rest.  If it has less, or if the cut is inside of a character, the
    function panics. *)
Theorem C64_expand : forall L txt f o, rust_file L txt f -> 2 <= o -> o <= List.length txt -> aligned txt o ->
  ((forall s, ~ stmt_here f o s) -> expand f o = Ok None)
  /\ (forall s, stmt_here f o s -> rstart (rng f s) + 3 <= rend (rng f s) -> aligned txt (rend (rng f s) - 3) ->
        exists ops, expand f o = Ok (Some ops) /\ apply ops (as_text txt) = Ok (printed f o s))
  /\ (forall s, stmt_here f o s -> rend (rng f s) < rstart (rng f s) + 3 \/ ~ aligned txt (rend (rng f s) - 3) -> expand f o = Panic).
Proof.
  intros L txt f o G L2 LE AL. destruct (rust_facts L txt f G) as (T & WF & <- & CT & NP).
  destruct (expand_ok f T WF CT o L2 LE AL) as [(N & E)|(s & S & E1 & E2)].
  - split; [auto|]. split; intros s S; destruct (N s S).
  - split; [intros N; destruct (N s S)|]. split; intros s' S'; rewrite <- (stmt_fun f T WF o s s' S S'); auto.
Qed.
Print Assumptions C64_expand.

Definition expanded (s : bytes) (o : nat) : option bytes := rust_after s (fun f => e <- expand f o ;; Ok (option_map Applied e)).
Example C64_case : (exists f inc, parse_file rust_lang 5000 (t "fn main() { foo.pd }") = Ok (f, inc) /\ rust_file rust_lang (t "fn main() { foo.pd }") f) /\
  expanded (t "fn main() { foo.pd }") 18 = Some (t "fn main() { eprintln!(""foo = {:?}"", foo); }") /\
  expanded (t "fn main() { let }") 15 = None.
Proof. split; [apply rust_case; vm_compute; reflexivity|]. vm_compute. auto. Qed.

(** "What is printed is the expression before the abbreviation" is false if there is a semicolon: the cut is one byte off, and a dot
    is left. *)
Theorem C64_semicolon_refuted : exists s o, rust_error_free s = true /\ s = t "fn main() { foo.pd; }" /\ firstn o s = t "fn main() { foo.pd" /\
  expanded s o = Some (t "fn main() { eprintln!(""foo. = {:?}"", foo.);; }").
Proof. exists (t "fn main() { foo.pd; }"), 18. vm_compute. auto. Qed.
Print Assumptions C64_semicolon_refuted.
Theorem C64_short_refuted : exists s o, rust_error_free s = true /\ o <= List.length s /\ rust_value s (fun f => expand f o) = Some Panic.
Proof. exists (t "fn main() { 1; }"), 15. split; [vm_compute; reflexivity|]. split; [cbn; lia|vm_compute; reflexivity]. Qed.
Print Assumptions C64_short_refuted.

(** * C65: breadcrumbs *)

(** The breadcrumbs are the entries of the nodes around the token left of the cursor, from the outermost to the innermost. *)
Theorem C65_breadcrumbs : forall L txt f o, rust_file L txt f -> 1 <= o -> o - 1 <= List.length txt ->
  (forall n l, token_left f (o - 1) n -> path_to f n l -> exists cs, Forall2 (crumb_of f) l cs /\ breadcrumbs f o = Ok (List.concat cs))
  /\ ((forall n, ~ token_left f (o - 1) n) -> breadcrumbs f o = Ok [])
  /\ forall n, token_left f (o - 1) n -> exists l, path_to f n l.
Proof.
  intros L txt f o G L1 LE. destruct (rust_facts L txt f G) as (T & WF & <- & CT & NP).
  destruct (breadcrumbs_ok f T WF CT o L1 LE) as [(n & l & cs & TL & P & F & E)|(N & E)].
  - split; [|split].
    + intros n' l' TL' P'. pose proof (token_left_fun f _ _ _ TL TL') as <-. rewrite <- (path_fun f T WF n l l' P P'). exists cs. auto.
    + intros N. destruct (N n TL).
    + intros n' TL'. pose proof (token_left_fun f _ _ _ TL TL') as <-. exists l. exact P.
  - split; [|split]; auto; intros n; intros; destruct (N n); assumption.
Qed.
Print Assumptions C65_breadcrumbs.

Example C65_case : (exists f inc, parse_file rust_lang 5000 (t "mod m { impl A for B { fn f() { 1 } } }") = Ok (f, inc) /\ rust_file rust_lang (t "mod m { impl A for B { fn f() { 1 } } }") f) /\
  rust_value (t "mod m { impl A for B { fn f() { 1 } } }") (fun f => breadcrumbs f 33) = Some (Ok [t "impl A for B"; t "fn f"]) /\
  rust_value (t "impl A { fn f() { struct S { x: , } }") (fun f => breadcrumbs f 34) = Some (Ok [t "impl A"; t "fn f"; t "struct S"]).
Proof. split; [apply rust_case; vm_compute; reflexivity|]. vm_compute. auto. Qed.

(** * C66: the list of actions *)

(** The list of the actions for a selection and the application of an action by its name agree: an action is listed exactly
    when applying it gives an edit, every edit can be applied to the text, and nothing panics. *)
Theorem C66_actions : forall L txt f ws r, rust_file L txt f -> rstart r <= List.length txt ->
  exists ids, rust_context_actions f ws r = Ok ids /\ NoDup ids
    /\ (forall id, In id ids -> In id [swap_id; add_braces_id; add_impl_id])
    /\ (In add_braces_id ids <-> exists s, bare_segment f (rstart r) s)
    /\ (In add_impl_id ids <-> exists d name, type_here f (rstart r) d name)
    /\ (forall id, (In id ids /\ exists ops out, rust_apply_context_action f ws r id = Ok (Some ops) /\ apply ops (as_text txt) = Ok out)
                   \/ (~ In id ids /\ rust_apply_context_action f ws r id = Ok None)).
Proof.
  intros L txt f ws r G LE. destruct (rust_facts L txt f G) as (T & WF & <- & CT & NP).
  unfold rust_context_actions, rust_apply_context_action, rust_actions, default_context_actions, apply_default_context_action, apply_action, default_actions.
  cbn [offered_actions find_first fst snd filter_res].
  assert (N12 : swap_id <> add_braces_id) by discriminate. assert (N13 : swap_id <> add_impl_id) by discriminate. assert (N23 : add_braces_id <> add_impl_id) by discriminate.
  assert (EQ : forall x y, bytes_eqb x y = true \/ bytes_eqb x y = false) by (intros x y; destruct (bytes_eqb x y); auto).
  assert (A : exists a, ((a = true /\ exists ops out, swap f ws (rstart r) false = Ok (Some Available) /\ swap f ws (rstart r) true = Ok (Some (Applied ops)) /\ apply ops (as_text (f_text f)) = Ok out)
     \/ (a = false /\ swap f ws (rstart r) false = Ok None /\ swap f ws (rstart r) true = Ok None))).
  { destruct (swap_ok f T ws WF CT (rstart r) ltac:(lia)) as [(c & l & x & l1 & l2 & r1 & r2 & ops & S & E1 & E2 & _ & _ & _ & _ & _ & _ & A)|(N & E1 & E2)].
    - exists true. left. split; [reflexivity|]. exists ops. eexists. split; [exact E1|]. split; [exact E2|exact A].
    - exists false. right. auto. }
  assert (B : exists b, ((b = true /\ exists ops out, add_use_braces f (rstart r) false = Ok (Some Available) /\ add_use_braces f (rstart r) true = Ok (Some (Applied ops)) /\ apply ops (as_text (f_text f)) = Ok out)
     \/ (b = false /\ add_use_braces f (rstart r) false = Ok None /\ add_use_braces f (rstart r) true = Ok None)) /\ (b = true <-> exists s, bare_segment f (rstart r) s)).
  { destruct (add_braces_ok f T WF CT (rstart r) LE) as [(x & ops & S & E1 & E2 & A')|(N & E1 & E2)].
    - exists true. split; [left; split; [reflexivity|]; exists ops; eexists; split; [exact E1|]; split; [exact E2|exact A']|]. split; [intros _; exists x; exact S|reflexivity].
    - exists false. split; [right; auto|]. split; [discriminate|]. intros (x & S). destruct (N x S). }
  assert (C : exists c, ((c = true /\ exists ops out, add_impl f (rstart r) false = Ok (Some Available) /\ add_impl f (rstart r) true = Ok (Some (Applied ops)) /\ apply ops (as_text (f_text f)) = Ok out)
     \/ (c = false /\ add_impl f (rstart r) false = Ok None /\ add_impl f (rstart r) true = Ok None)) /\ (c = true <-> exists d name, type_here f (rstart r) d name)).
  { destruct (add_impl_ok f T WF CT (rstart r) NP LE) as [(d & name & h & a & ops & S & _ & E1 & E2 & A')|(N & E1 & E2)].
    - exists true. split; [left; split; [reflexivity|]; exists ops; eexists; split; [exact E1|]; split; [exact E2|exact A']|]. split; [intros _; exists d, name; exact S|reflexivity].
    - exists false. split; [right; auto|]. split; [discriminate|]. intros (d & n & S). destruct (N d n S). }
  destruct A as (a & A). destruct B as (b & B & BS). destruct C as (c & C & CS).
  exists ((if a then [swap_id] else []) ++ (if b then [add_braces_id] else []) ++ (if c then [add_impl_id] else [])). split.
  { destruct A as [(-> & ? & ? & -> & _)|(-> & -> & _)]; destruct B as [(-> & ? & ? & -> & _)|(-> & -> & _)]; destruct C as [(-> & ? & ? & -> & _)|(-> & -> & _)]; reflexivity. }
  split; [destruct a, b, c; cbn [app]; repeat constructor; cbn [In]; intuition congruence|].
  split; [intros id; rewrite !in_app_iff; destruct a, b, c; cbn [In]; tauto|].
  split; [rewrite <- BS, !in_app_iff; destruct a, b, c; cbn [In]; intuition congruence|].
  split; [rewrite <- CS, !in_app_iff; destruct a, b, c; cbn [In]; intuition congruence|].
  intros id. rewrite !in_app_iff. destruct (EQ swap_id id) as [E|E]; rewrite E.
  { apply bytes_eqb_spec in E. subst id. destruct A as [(-> & ops & out & _ & -> & AO)|(-> & _ & ->)]; cbn [bind into_edit].
    - left. split; [left; left; reflexivity|]. exists ops, out. auto.
    - right. split; [|reflexivity]. destruct b, c; cbn [In]; intuition congruence. }
  assert (NE : swap_id <> id) by (intros <-; pose proof (proj2 (bytes_eqb_spec swap_id swap_id) eq_refl); congruence). cbn [bind]. destruct (EQ add_braces_id id) as [E'|E']; rewrite E'.
  { apply bytes_eqb_spec in E'. subst id. destruct B as [(-> & ops & out & _ & -> & AO)|(-> & _ & ->)]; cbn [bind into_edit].
    - left. split; [right; left; left; reflexivity|]. exists ops, out. auto.
    - right. split; [|reflexivity]. destruct a, c; cbn [In]; intuition congruence. }
  assert (NE' : add_braces_id <> id) by (intros <-; pose proof (proj2 (bytes_eqb_spec add_braces_id add_braces_id) eq_refl); congruence). destruct (EQ add_impl_id id) as [E''|E'']; rewrite E''.
  { apply bytes_eqb_spec in E''. subst id. destruct C as [(-> & ops & out & _ & -> & AO)|(-> & _ & ->)]; cbn [bind into_edit].
    - left. split; [right; right; left; reflexivity|]. exists ops, out. auto.
    - right. split; [|reflexivity]. destruct a, b; cbn [In]; intuition congruence. }
  assert (NE'' : add_impl_id <> id) by (intros <-; pose proof (proj2 (bytes_eqb_spec add_impl_id add_impl_id) eq_refl); congruence). right. split; [|reflexivity]. destruct a, b, c; cbn [In]; intuition congruence.
Qed.
Print Assumptions C66_actions.

Example C66_case : rust_value (t "use a::b; struct S;") (fun f => rust_context_actions f rust_ws (mkRange 6 6)) = Some (Ok [add_braces_id]) /\
  rust_value (t "use a::b; struct S;") (fun f => rust_context_actions f rust_ws (mkRange 17 17)) = Some (Ok [add_impl_id]) /\
  rust_value (t "struct S { a: u32, b: u8 }") (fun f => rust_context_actions f rust_ws (mkRange 17 17)) = Some (Ok [swap_id; add_impl_id]) /\
  rust_value (t "fn f() {}") (fun f => rust_context_actions f rust_ws (mkRange 3 3)) = Some (Ok []).
Proof. vm_compute. auto. Qed.

(** * C67: the outline *)

(** The outline has exactly the named functions, structs, enums, type aliases, traits and modules, wherever they are in the
    file, with their ranges; definitions are in the order of the text, and nested ones before those around them. *)
Theorem C67_outline : forall L txt f, rust_file L txt f -> exists order, bottom_up_list f 0 order /\ rust_structure f = Ok (flat_map (symbol_entry f) order).
Proof. intros L txt f G. destruct (rust_facts L txt f G) as (T & WF & <- & CT & NP). exact (rust_structure_ok f T WF CT). Qed.
Print Assumptions C67_outline.

Definition nested_text := t "mod m { fn a() { struct b; } enum E {} }".
Example C67_case : (exists f inc, parse_file rust_lang 5000 nested_text = Ok (f, inc) /\ rust_file rust_lang nested_text f) /\
  rust_value nested_text rust_structure = Some (Ok [(t "b", mkRange 16 26); (t "a", mkRange 8 28); (t "E", mkRange 29 38); (t "m", mkRange 0 40)]).
Proof. split; [apply rust_case; vm_compute; reflexivity|]. vm_compute. auto. Qed.

(** "The outline is in the order of the text" is false for nested definitions. *)
Theorem C67_order_refuted : exists s l, rust_error_free s = true /\ rust_value s rust_structure = Some (Ok l) /\ exists l1 x l2 y l3, l = l1 ++ x :: l2 ++ y :: l3 /\ rstart (snd y) < rstart (snd x).
Proof.
  exists nested_text. eexists. split; [vm_compute; reflexivity|]. split; [vm_compute; reflexivity|].
  exists [], (t "b", mkRange 16 26), [], (t "a", mkRange 8 28). eexists. split; [reflexivity|cbn; lia].
Qed.
Print Assumptions C67_order_refuted.

(** * C68: comments that belong to a struct *)

(** The tokens before a struct which become a part of it are the longest run of line comments and of whitespace without a
    line break that ends at the struct; no other node takes any, and nothing is taken after a node. *)
Theorem C68_binder : forall ty sp leading, rust_binder ty sp leading <= List.length sp /\
  exists rest taken, sp = rest ++ taken /\ List.length taken = rust_binder ty sp leading
    /\ (ty = RS_STRUCT_DEF -> leading = true -> Forall comment_or_space taken /\ (rest = [] \/ exists r x, rest = r ++ [x] /\ ~ comment_or_space x))
    /\ (ty <> RS_STRUCT_DEF \/ leading = false -> taken = []).
Proof.
  intros ty sp leading. split; [apply rust_binder_le|].
  assert (RT : forall x, rust_take x = true <-> comment_or_space x).
  { intros (k & s). unfold rust_take, comment_or_space. cbn [fst snd]. destruct (k =? RS_LINE_COMMENT) eqn:E1.
    - apply Nat.eqb_eq in E1. tauto.
    - apply Nat.eqb_neq in E1. rewrite andb_true_iff, Nat.eqb_eq, negb_true_iff. split.
      + intros (A & B). right. split; [exact A|]. intros J. assert (X : existsb (Nat.eqb 10) s = true) by (apply existsb_exists; exists 10; auto). congruence.
      + intros [A|(A & B)]; [congruence|]. split; [exact A|]. destruct (existsb (Nat.eqb 10) s) eqn:X; [|reflexivity]. apply existsb_exists in X. destruct X as (y & J & E). apply Nat.eqb_eq in E. subst y. contradiction. }
  assert (TW : forall l, exists r, l = take_while rust_take l ++ r /\ Forall comment_or_space (take_while rust_take l) /\ (r = [] \/ exists x r', r = x :: r' /\ ~ comment_or_space x)).
  { induction l as [|x l (r & E & F & R)]; [exists []; cbn; auto|]. cbn [take_while]. destruct (rust_take x) eqn:Q.
    - exists r. cbn [app]. split; [congruence|]. split; [constructor; [apply RT; exact Q|exact F]|exact R].
    - exists (x :: l). split; [reflexivity|]. split; [constructor|]. right. exists x, l. split; [reflexivity|]. intros Y. apply RT in Y. congruence. }
  unfold rust_binder. destruct leading; cbn [negb].
  2:{ exists sp, []. rewrite app_nil_r. repeat split; auto; intros; discriminate. }
  destruct (ty =? RS_STRUCT_DEF) eqn:E.
  - apply Nat.eqb_eq in E. destruct (TW (rev sp)) as (r & ER & F & R). exists (rev r), (rev (take_while rust_take (rev sp))). split; [rewrite <- rev_app_distr, <- ER, rev_involutive; reflexivity|].
    split; [apply rev_length|]. split; [|intros [X|X]; [contradiction|discriminate X]]. intros _ _. split; [apply Forall_rev; exact F|].
    destruct R as [-> | (x & r' & -> & NX)]; [left; reflexivity|right]. exists (rev r'), x. split; [reflexivity|exact NX].
  - apply Nat.eqb_neq in E. exists sp, []. rewrite app_nil_r. repeat split; auto; intros; contradiction.
Qed.
Print Assumptions C68_binder.

Example C68_case : rust_binder RS_STRUCT_DEF [(RS_WHITESPACE, [10]); (RS_LINE_COMMENT, [47; 47]); (RS_WHITESPACE, [32])] true = 2 /\
  rust_binder RS_STRUCT_DEF [(RS_LINE_COMMENT, [47; 47]); (RS_WHITESPACE, [10])] true = 0 /\ rust_binder RS_FN_DEF [(RS_LINE_COMMENT, [47; 47])] true = 0 /\
  rust_value (t "fn f() {}
// A
struct S;") rust_structure = Some (Ok [(t "f", mkRange 0 9); (t "S", mkRange 10 24)]).
Proof. vm_compute. auto. Qed.
