(** C85: the Rust plugin. *)
From Coq Require Import List Arith Bool Lia String.
From Verif Require Import Base BaseFacts TextModel TextSpec TextProofs EditModel LexModel LexSpec ScanSpec TreeModel TreeSpec FileEditModel FileEditSpec FileEditProofs
  GrammarModel GrammarData ParserModel MonoProofs ConvertModel ReparseModel AnalysisModel AnalysisSpec EditorModel FallEditModel PropsCheck PropsComplete PropsAlways PropsEditor EditorSpec
  RegexModel RegexSpec RegexProofs LexData FallLang PropsRegex PropsRelex SessionModel SessionSpec SessionProofs PropsSession ClientModel ClientSpec ClientProofs FeatureModel FeatureProofs ScreenModel ScreenProofs
  TreeProofs TraversalProofs EditorProofs ViewProofs IndexModel IndexSpec IndexProofs PropsIndex RustEditModel RustEditSpec RustEditProofs RustLang PropsRustEdit RustPluginModel RustPluginSpec RustPluginProofs.
Import ListNotations.
Open Scope list_scope.
Open Scope nat_scope.

Section Plugin.
  Variables (U : tables) (err : bytes -> nat) (known : nat -> bool).
  Hypothesis TO : tables_ok U.
  Hypothesis ER : err_ok err.
  Let L := rust_shipped U err.

(** After any events: if every typed change was reparsed to what parsing gives, then every file held is the parse of its document's current text. *)
Theorem C85_session : forall tx evs fuel s, reparsed_well L known fuel (mkSession tx (fun _ => None)) evs ->
  handle_all L None known fuel (mkSession tx (fun _ => None)) evs = Ok s -> texts s = current tx evs /\ up_to_date L known s.
Proof.
  intros tx evs fuel s RW H. apply (handle_all_up U err known fuel evs (mkSession tx (fun _ => None)) s); [|exact RW|exact H].
  intros w x D. discriminate D.
Qed.

(** If no Rust document is changed by typing, only by being opened, closed and rewritten, then this is so without further conditions, and
    nothing panics. *)
Theorem C85_untyped : forall tx evs, (forall w, characters (tx w)) -> proper_events tx evs -> no_typing known evs ->
  exists fuel, forall more, exists s, handle_all L None known (fuel + more) (mkSession tx (fun _ => None)) evs = Ok s /\ texts s = current tx evs /\ up_to_date L known s.
Proof. exact (untyped_session U err known TO ER). Qed.

  Variables (s : session) (u : nat) (active : option nat).
  Hypothesis UP : up_to_date L known s.
  Hypothesis C : forall w, characters (texts s w).

(** What is drawn in the active editor: the error nodes of the current text are marked, an empty one together with the character behind it, and
    nothing has another colour. *)
Theorem C85_drawn : forall moment a x scr, known a = true -> docs s a = Some x -> ascii_document (texts s a) ->
  let f := fst x in let scr' := draw known rust_highlight (fun _ _ => Ok []) moment (Some a) s scr in
  (exists fuel, parse_file L fuel (List.concat (texts s a)) = Ok x) /\ (forall tag, tag <> HError -> colours scr' a tag = []) /\
  forall p q, In (p, q) (colours scr' a HError) <->
    exists n, is_a f ERROR n /\ p = rstart (rng f n) /\ q = Nat.min (rstart (rng f n) + Nat.max 1 (rend (rng f n) - rstart (rng f n))) (List.length (List.concat (texts s a))).
Proof.
  intros moment a x scr KA D AS f scr'. destruct (UP a x D) as (_ & fuel & P). split; [exists fuel; exact P|]. pose proof (parsed_rust U err TO ER fuel (texts s a) x (C a) P) as G. fold f in G.
  destruct (rust_facts _ _ _ G) as (T & WF & TX & _). destruct (marks_errors f T WF) as (hs & EH & IN). unfold scr', draw. rewrite KA, D. fold f. rewrite EH. cbn [colours]. unfold set. rewrite Nat.eqb_refl. unfold by_tag. split.
  - intros tag NE. assert (Z : filter (fun h => same_tag (snd h) tag) hs = []); [|rewrite Z; reflexivity].
    assert (E : forall h, In h hs -> same_tag (snd h) tag = false). { intros (r & g) J. destruct (proj1 (IN r g) J) as (-> & _). cbn [snd]. destruct tag; try reflexivity. congruence. }
    clear -E. induction hs as [|h hs IH]; [reflexivity|]. cbn [filter]. rewrite (E h (or_introl eq_refl)). apply IH. intros h' J. apply E. right. exact J.
  - intros p q. assert (UN : units (texts s a) = List.length (List.concat (texts s a))) by (destruct (ascii_lengths _ AS) as (E1 & E2); unfold contents in E2; congruence).
    assert (FIT : forall n, rstart (rng f n) <= List.length (List.concat (texts s a))) by (intros n; destruct (rng_fits f T n WF) as (A & B); rewrite TX in B; lia).
    rewrite in_map_iff. split.
    + intros ((r & g) & E & J). apply filter_In in J. destruct J as (J & _). destruct (proj1 (IN r g) J) as (_ & n & IA & ->). exists n. split; [exact IA|]. unfold to_vs_range, position_at in E. cbn [fst rstart rend] in E.
      injection E as <- <-. rewrite UN. split; [|reflexivity]. pose proof (FIT n). lia.
    + intros (n & IA & -> & ->). exists (mkRange (rstart (rng f n)) (rstart (rng f n) + Nat.max 1 (rend (rng f n) - rstart (rng f n))), HError). split.
      * unfold to_vs_range, position_at. cbn [fst rstart rend]. rewrite UN. f_equal. pose proof (FIT n). lia.
      * apply filter_In. split; [|reflexivity]. apply IN. split; [reflexivity|]. exists n. auto.
Qed.

(** Documents that are not Rust: nothing. *)
Theorem C85_foreign : forall fuel o ch sel id, known u = false ->
  on_type L known fuel active s u o ch = Ok (s, None) /\ moved_to L known fuel active s u o = Ok (s, None) /\ rust_symbols L known fuel active s u = Ok (s, []) /\
  rust_offers L known fuel active s u sel = Ok (s, []) /\ rust_runs L known fuel (Some u) s sel id = Ok (s, None).
Proof.
  intros fuel o ch sel id K. unfold on_type, moved_to, rust_symbols, rust_offers, rust_runs, L. rewrite !(fetch_other U err known fuel s u active K), (fetch_other U err known fuel s u (Some u) K). repeat split; reflexivity.
Qed.

  Hypothesis K : known u = true.
  Hypothesis AS : ascii_document (texts s u).
  Let txt := List.concat (texts s u).

Lemma fetched_rust : exists fuel, forall more, exists s' f inc, parse_file L (fuel + more) txt = Ok (f, inc) /\ texts s' = texts s /\ up_to_date L known s' /\
  rust_fetch L known (fuel + more) active s u = Ok (s', Some (f, inc)) /\ rust_file L txt f /\ exists T, wf_file f T /\ f_text f = txt /\ char_tree (f_text f) T.
Proof.
  destruct (rust_fetched U err known TO ER s u active UP C K) as (fuel & H). exists fuel. intros more. destruct (H more) as (s' & f & inc & P & T & UP' & E). exists s', f, inc.
  split; [exact P|]. split; [exact T|]. split; [exact UP'|]. split; [exact E|]. pose proof (parsed_rust U err TO ER (fuel + more) (texts s u) (f, inc) (C u) P) as G. cbn [fst] in G. split; [exact G|].
  destruct (rust_facts _ _ _ G) as (T0 & WF & TX & CT & _). exists T0. auto.
Qed.

(** A space was typed, and the cursor is at [o]: a semicolon is put there exactly if a [let] was begun (C63), and nothing else changes. *)
Theorem C85_space : forall o, 1 <= o -> o <= List.length txt -> exists fuel, forall more, exists s' f inc, parse_file L (fuel + more) txt = Ok (f, inc) /\ texts s' = texts s /\ up_to_date L known s' /\
  (let_begun f o -> exists js, on_type L known (fuel + more) active s u o 32 = Ok (s', Some js) /\ after_edits (texts s u) js = firstn o txt ++ [59] ++ skipn o txt) /\
  (~ let_begun f o -> on_type L known (fuel + more) active s u o 32 = Ok (s', None)).
Proof.
  intros o L1 LE. destruct fetched_rust as (fuel & H). exists fuel. intros more. destruct (H more) as (s' & f & inc & P & T & UP' & E & G & _). exists s', f, inc.
  split; [exact P|]. split; [exact T|]. split; [exact UP'|]. destruct (C63_space L txt f o G L1 ltac:(lia)) as (Y & N). unfold on_type. rewrite E. cbn [bind Nat.eqb fst]. split.
  - intros B. rewrite (Y B). cbn [bind]. eexists. split; [reflexivity|]. unfold after_edits. cbn [map fst snd splice r_from r_to r_what]. fold (contents (texts s u)). fold (contents (before (texts s u) o)).
    rewrite (before_length _ o AS LE). unfold sub. rewrite Nat.sub_0_r. cbn [skipn]. fold txt. unfold contents. fold txt. f_equal. f_equal. rewrite firstn_all2; [reflexivity|]. rewrite skipn_length. lia.
  - intros B. rewrite (N B). reflexivity.
Qed.

(** A dollar sign was typed: what C64 says becomes of the text. *)
Theorem C85_dollar : forall o, 2 <= o -> o <= List.length txt -> exists fuel, forall more, exists s' f inc, parse_file L (fuel + more) txt = Ok (f, inc) /\ texts s' = texts s /\ up_to_date L known s' /\
  ((forall n, ~ stmt_here f o n) -> on_type L known (fuel + more) active s u o 36 = Ok (s', None)) /\
  (forall n, stmt_here f o n -> rstart (rng f n) + 3 <= rend (rng f n) ->
     exists js, on_type L known (fuel + more) active s u o 36 = Ok (s', Some js) /\ after_edits (texts s u) js = printed f o n) /\
  (forall n, stmt_here f o n -> rend (rng f n) < rstart (rng f n) + 3 -> on_type L known (fuel + more) active s u o 36 = Panic).
Proof.
  intros o L2 LE. destruct fetched_rust as (fuel & H). exists fuel. intros more. destruct (H more) as (s' & f & inc & P & T & UP' & E & G & T0 & WF & TX & CT). exists s', f, inc.
  split; [exact P|]. split; [exact T|]. split; [exact UP'|]. destruct (C64_expand L txt f o G L2 LE (ascii_aligned _ _ AS (C u) LE)) as (N & Y & B). unfold on_type. rewrite E. cbn [bind Nat.eqb fst]. split; [|split].
  - intros NO. rewrite (N NO). reflexivity.
  - intros n SH LEN. assert (BD : rend (rng f n) <= List.length txt) by (destruct (rng_fits f T0 n WF) as (_ & X); rewrite TX in X; exact X).
    destruct (Y n SH LEN (ascii_aligned _ (rend (rng f n) - 3) AS (C u) ltac:(fold txt; lia))) as (ops & EO & AP). rewrite EO. cbn [bind]. destruct (expand_edit f o ops EO) as (e & IT).
    destruct (tree_client (texts s u) f T0 e ops _ AS TX WF CT IT AP) as (js & EJ & AJ). exists js. rewrite T, EJ. auto.
  - intros n SH LEN. rewrite (B n SH (or_introl LEN)). reflexivity.
Qed.

(** After any other character, nothing. *)
Theorem C85_other : forall o ch, ch <> 32 -> ch <> 36 -> exists fuel, forall more, exists s', texts s' = texts s /\ on_type L known (fuel + more) active s u o ch = Ok (s', None).
Proof.
  intros o ch N1 N2. destruct fetched_rust as (fuel & H). exists fuel. intros more. destruct (H more) as (s' & f & inc & P & T & UP' & E & _). exists s'. split; [exact T|].
  unfold on_type. rewrite E. cbn [bind]. apply Nat.eqb_neq in N1, N2. rewrite N1, N2. reflexivity.
Qed.

(** The status bar shows the breadcrumbs (C65) of the token left of the cursor, with arrows between them. *)
Theorem C85_bar : forall o, 1 <= o -> o <= List.length txt -> exists fuel, forall more, exists s' f inc shown, parse_file L (fuel + more) txt = Ok (f, inc) /\ texts s' = texts s /\ up_to_date L known s' /\
  moved_to L known (fuel + more) active s u o = Ok (s', Some shown) /\
  (forall n l, token_left f (o - 1) n -> RustEditSpec.path_to f n l -> exists cs, Forall2 (crumb_of f) l cs /\ joined chevron (List.concat cs) shown) /\
  ((forall n, ~ token_left f (o - 1) n) -> shown = []).
Proof.
  intros o L1 LE. destruct fetched_rust as (fuel & H). exists fuel. intros more. destruct (H more) as (s' & f & inc & P & T & UP' & E & G & _).
  destruct (C65_breadcrumbs L txt f o G L1 ltac:(lia)) as (Y & N & PT). assert (B : exists l, breadcrumbs f o = Ok l).
  { destruct (rust_facts _ _ _ G) as (T0 & WF & TX & CT & NP). destruct (breadcrumbs_ok f T0 WF CT o L1 ltac:(rewrite TX; lia)) as [(n & l & cs & _ & _ & _ & EB)|(_ & EB)]; eexists; exact EB. }
  destruct B as (l & EB). exists s', f, inc, (join chevron l). split; [exact P|]. split; [exact T|]. split; [exact UP'|]. split; [unfold moved_to; rewrite E; cbn [bind fst]; rewrite EB; reflexivity|]. split.
  - intros n p TL PN. destruct (Y n p TL PN) as (cs & F & EC). exists cs. split; [exact F|]. rewrite EB in EC. injection EC as ->. apply joined_ok.
  - intros NO. rewrite (N NO) in EB. injection EB as <-. reflexivity.
Qed.

(** The symbols of the document are its outline (C67), at the right places. *)
Theorem C85_symbols : exists fuel, forall more, exists s' f inc order, parse_file L (fuel + more) txt = Ok (f, inc) /\ texts s' = texts s /\ up_to_date L known s' /\ bottom_up_list f 0 order /\
  rust_symbols L known (fuel + more) active s u = Ok (s', map (fun y => (fst y, (rstart (snd y), rend (snd y)))) (flat_map (symbol_entry f) order)).
Proof.
  destruct fetched_rust as (fuel & H). exists fuel. intros more. destruct (H more) as (s' & f & inc & P & T & UP' & E & G & T0 & WF & TX & CT).
  destruct (C67_outline L txt f G) as (order & B & ES). exists s', f, inc, order. split; [exact P|]. split; [exact T|]. split; [exact UP'|]. split; [exact B|].
  unfold rust_symbols. rewrite E. cbn [bind fst]. rewrite ES. cbn [bind]. rewrite T. f_equal. f_equal. apply map_ext_in. intros (name & r) J. cbn [fst snd]. f_equal.
  apply (range_fits f _ r AS TX). apply in_flat_map in J. destruct J as (n & _ & J). unfold symbol_entry in J.
  destruct (existsb _ _); [|destruct J]. destruct (rs_name f n); [|destruct J]. destruct J as [J|[]]. injection J as _ <-. exact (rng_fits f T0 _ WF).
Qed.

(** Context actions (C66): exactly those offered can be applied, as long as the document is active and has the same text; each edits this document,
    and the text becomes the one the action says (C61, C62). *)
Theorem C85_actions : forall s2 a b, up_to_date L known s2 -> (forall w, characters (texts s2 w)) -> texts s2 u = texts s u -> a <= b -> b <= List.length txt ->
  exists fuel, forall more, exists s' s2' f inc ids, parse_file L (fuel + more) txt = Ok (f, inc) /\ texts s' = texts s /\ up_to_date L known s' /\ texts s2' = texts s2 /\
    rust_offers L known (fuel + more) active s u (a, b) = Ok (s', ids) /\
    (In add_braces_id ids <-> exists x, bare_segment f a x) /\ (In add_impl_id ids <-> exists d name, type_here f a d name) /\
    (forall id, ~ In id ids -> rust_runs L known (fuel + more) (Some u) s2 (a, b) id = Panic) /\
    forall id, In id ids -> exists ops js out, rust_runs L known (fuel + more) (Some u) s2 (a, b) id = Ok (s2', Some (u, js)) /\
      rust_apply_context_action f rust_ws (mkRange a b) id = Ok (Some ops) /\ apply ops (as_text txt) = Ok out /\ after_edits (texts s u) js = out /\
      (id = add_braces_id -> forall x, bare_segment f a x -> out = braced f x) /\
      (id = add_impl_id -> forall d name, type_here f a d name -> exists params args, generics f d params args /\ out = with_impl f d name params args).
Proof.
  intros s2 a b UP2 C2 SAME AB LE. destruct fetched_rust as (f1 & H1). destruct (rust_fetched U err known TO ER s2 u (Some u) UP2 C2 K) as (f2 & H2). exists (f1 + f2). intros more.
  destruct (H1 (f2 + more)) as (s' & f & inc & P & T & UP' & E & G & T0 & WF & TX & CT). destruct (H2 (f1 + more)) as (s2' & f' & inc' & P2 & T2 & UP2' & E2).
  replace (f1 + (f2 + more)) with (f1 + f2 + more) in * by lia. replace (f2 + (f1 + more)) with (f1 + f2 + more) in * by lia. set (F := f1 + f2 + more) in *. fold L in P2, E2, UP2'.
  rewrite SAME in P2. fold txt in P2. assert (X : (f', inc') = (f, inc)) by congruence. injection X as -> ->.
  destruct (C66_actions L txt f rust_ws (mkRange a b) G ltac:(cbn [rstart]; lia)) as (ids & EI & ND & IDS & AB1 & AI1 & ALL).
  exists s', s2', f, inc, ids. split; [exact P|]. split; [exact T|]. split; [exact UP'|]. split; [exact T2|].
  split. { unfold rust_offers. rewrite E. cbn [bind fst]. unfold from_vs_range. cbn [fst snd]. change (l_ws L) with rust_ws. rewrite EI. reflexivity. }
  split; [exact AB1|]. split; [exact AI1|]. split.
  - intros id N. destruct (ALL id) as [(J & _)|(_ & EN)]; [contradiction|]. unfold rust_runs. rewrite E2. cbn [bind fst]. unfold from_vs_range. cbn [fst snd]. change (l_ws L) with rust_ws. rewrite EN. reflexivity.
  - intros id J. destruct (ALL id) as [(_ & ops & out & EA & AP)|(N & _)]; [|contradiction]. destruct (rust_action_edit f rust_ws (mkRange a b) id ops EA) as (e & IT).
    destruct (tree_client (texts s u) f T0 e ops out AS TX WF CT IT AP) as (js & EJ & AJ). exists ops, js, out.
    split. { unfold rust_runs. rewrite E2. cbn [bind fst]. unfold from_vs_range. cbn [fst snd]. change (l_ws L) with rust_ws. rewrite EA. cbn [bind]. rewrite T2, SAME, EJ. reflexivity. }
    split; [exact EA|]. split; [exact AP|]. split; [exact AJ|].
    assert (N12 : bytes_eqb swap_id add_braces_id = false) by (vm_compute; reflexivity). assert (N13 : bytes_eqb swap_id add_impl_id = false) by (vm_compute; reflexivity).
    assert (N23 : bytes_eqb add_braces_id add_impl_id = false) by (vm_compute; reflexivity).
    assert (D2 : bytes_eqb add_braces_id add_braces_id = true) by (vm_compute; reflexivity). assert (D3 : bytes_eqb add_impl_id add_impl_id = true) by (vm_compute; reflexivity).
    unfold rust_apply_context_action, apply_default_context_action, apply_action, default_actions, rust_actions in EA. cbn [find_first fst] in EA. split.
    + intros -> x B. rewrite N12 in EA. cbn [bind] in EA. rewrite D2 in EA. cbn [rstart] in EA.
      destruct (proj1 (proj2 (C61_add_braces L txt f a G ltac:(lia))) x B) as (ops' & ES & AE). rewrite ES in EA. cbn [bind into_edit] in EA. injection EA as ->. congruence.
    + intros -> d name B. rewrite N13 in EA. cbn [bind] in EA. rewrite N23, D3 in EA. cbn [rstart] in EA.
      destruct (proj1 (proj2 (C62_add_impl L txt f a G ltac:(lia))) d name B) as (params & args & ops' & GN & ES & AE). rewrite ES in EA. cbn [bind into_edit] in EA. injection EA as ->.
      exists params, args. split; [exact GN|congruence].
Qed.
End Plugin.
Print Assumptions C85_session.
Print Assumptions C85_untyped.
Print Assumptions C85_drawn.
Print Assumptions C85_foreign.
Print Assumptions C85_space.
Print Assumptions C85_dollar.
Print Assumptions C85_other.
Print Assumptions C85_bar.
Print Assumptions C85_symbols.
Print Assumptions C85_actions.

(** ** Symbols of the workspace *)

(** The index of a file of Rust, in a workspace of the files [docs]. *)
Definition indexed {P} (L : language) (lower : bytes -> bytes) (d : P * document) (x : P * file_symbols) : Prop :=
  fst x = fst d /\ exists fuel f inc, parse_file L fuel (List.concat (snd d)) = Ok (f, inc) /\ file_symbols_new lower f symbol_types RS_IDENT = Ok (snd x).

(** [place] is where the definition of [name] is in the document [d]. *)
Definition defined_at (L : language) (d : document) (name : bytes) (from to : nat * nat) : Prop :=
  exists fuel f inc n, parse_file L fuel (List.concat d) = Ok (f, inc) /\ symbol_entry f n = [(name, mkRange (vs_offset d (fst from) (snd from)) (vs_offset d (fst to) (snd to)))].

(** [name] is the name of a definition in the document [d]. *)
Definition defined_in (L : language) (d : document) (name : bytes) : Prop :=
  exists fuel f inc n r, parse_file L fuel (List.concat d) = Ok (f, inc) /\ symbol_entry f n = [(name, r)].

(** Searching for a symbol does not panic, and VS Code jumps to definitions: every answer names a function, struct, enum, type, trait or module of
    its file, and the lines and columns are those of its start and end, for ASCII texts without carriage returns. With [#] in the query, everything
    is found: if there are not too many answers then each definition whose name has the letters of the query in order is among them, up to the case
    of its letters. [docs1] and [docs2] are the workspace at the two times the index is searched. *)
Theorem C85_workspace : forall U err lower lower_chars P limit types q (docs1 docs2 : list (P * document)) files1 files2, tables_ok U -> err_ok err ->
  (forall p d, In (p, d) (docs1 ++ docs2) -> characters d /\ ascii_document d /\ ~ In 13 (List.concat d)) ->
  Forall2 (indexed (rust_shipped U err) lower) docs1 files1 -> Forall2 (indexed (rust_shipped U err) lower) docs2 files2 ->
  exists r, workspace_symbols lower_chars limit types files1 files2 q = Ok r /\
    (forall name from to p, In (name, (from, to), p) r -> exists d, In (p, d) (docs1 ++ docs2) /\ defined_at (rust_shipped U err) d name from to) /\
    (In 35 q -> List.length r <= limit -> forall p d name, In (p, d) docs1 -> defined_in (rust_shipped U err) d name ->
       IndexSpec.subseq (lower_chars (remove Nat.eq_dec 35 q)) (lower name) -> exists name' place, In (name', place, p) r /\ lower name' = lower name).
Proof.
  intros U err lower lower_chars P limit types q docs1 docs2 files1 files2 TO ER FINE I1 I2. set (L := rust_shipped U err) in *.
  assert (ONE : forall d x, characters (snd d) -> ascii_document (snd d) -> ~ In 13 (List.concat (snd d)) -> @indexed P L lower d x ->
     exists l, indexes lower l (snd x) /\ (forall y, In y l -> defined_at L (snd d) (sy_name y) (fst (sy_lc y)) (snd (sy_lc y))) /\
       forall name, defined_in L (snd d) name -> exists y, In y l /\ sy_name y = name).
  { intros (p & d) (p' & x) CD AD CR (_ & fuel & f & inc & PF & FS). cbn [fst snd] in *. pose proof (parsed_rust U err TO ER fuel d (f, inc) CD PF) as G. cbn [fst] in G.
    destruct (rust_facts _ _ _ G) as (T & WF & TX & CT & _).
    destruct (C33_file_index lower f T symbol_types RS_IDENT d WF CT TX) as (order & ls & x' & SO & NS & FS' & IX).
    { unfold characters in CD. unfold ascii_document in AD. rewrite Forall_forall in *. intros c J. destruct (CD c J) as (V & _). split; [exact V|]. pose proof (AD c J) as LC. destruct c as [|b [|? ?]]; try discriminate LC; exact I. }
    rewrite FS in FS'. injection FS' as <-. exists (List.concat ls). split; [exact IX|]. split.
    - intros y J. apply in_concat in J. destruct J as (l & J1 & J2).
      assert (X : exists n, node_symbols f T symbol_types RS_IDENT n l). { clear -NS J1. induction NS as [|n l' order ls H NS IH]; [destruct J1|]. destruct J1 as [<-|J1]; [exists n; exact H|exact (IH J1)]. }
      destruct X as (n & NSY). inversion NSY as [name p0 par t l1 c1 l2 c2 DF A LC1 LC2 EQ|]; subst l; [|destruct J2]. destruct J2 as [<-|[]]. cbn [sy_name sy_lc fst snd].
      pose proof (defines_entry f T n name p0 par t WF DF A) as SE. exists fuel, f, inc, n. split; [exact PF|]. rewrite SE. rewrite TX in LC1, LC2. cbn [fst snd].
      assert (BD : p0 + tlen t <= List.length (List.concat d)).
      { pose proof (rng_fits f T n WF) as (_ & BD). unfold rng, at_node in BD. destruct WF as (ST & _). rewrite (proj2 ST _ _ _ _ A) in BD. cbn in BD. rewrite TX in BD. exact BD. }
      rewrite (vs_offset_ok d AD CR p0 l1 c1 ltac:(lia) LC1), (vs_offset_ok d AD CR (p0 + tlen t) l2 c2 BD LC2). reflexivity.
    - intros name (fuel' & f' & inc' & n & r & PF' & SE). assert (X : (f', inc') = (f, inc)).
      { apply (parse_more L fuel' (fuel + fuel')) in PF'; [|lia]. apply (parse_more L fuel (fuel + fuel')) in PF; [|lia]. congruence. }
      injection X as -> ->. destruct (entry_defines f T n name r WF SE) as (V & DF).
      assert (J : In n order). { unfold root in SO. rewrite (subtree_ok _ _ (proj1 WF) _ _ _ _ (At_root T)) in SO. injection SO as <-. apply (order_valid f T WF). exact V. }
      assert (X : exists l, In l ls /\ node_symbols f T symbol_types RS_IDENT n l). { clear -NS J. induction NS as [|m l order ls H NS IH]; [destruct J|]. destruct J as [->|J]; [exists l; split; [left; reflexivity|exact H]|]. destruct (IH J) as (l' & A & B). exists l'. split; [right; exact A|exact B]. }
      destruct X as (l & JL & NSY). inversion NSY as [name' p0 par t l1 c1 l2 c2 DF' A LC1 LC2 EQ|ND]; subst l; [|destruct (ND name DF)].
      pose proof (defines_entry f T n name' p0 par t WF DF' A) as SE'. pose proof (defines_entry f T n name p0 par t WF DF A) as SE2. rewrite SE2 in SE'. injection SE' as ->.
      eexists. split; [apply in_concat; eexists; split; [exact JL|left; reflexivity]|reflexivity]. }
  assert (ALL : forall docs files, (forall p d, In (p, d) docs -> characters d /\ ascii_document d /\ ~ In 13 (List.concat d)) -> Forall2 (@indexed P L lower) docs files ->
     exists lists, Forall2 (fun l x => indexes lower l (snd x)) lists files /\ Forall2 (fun d l => forall y, In y l -> defined_at L (snd d) (sy_name y) (fst (sy_lc y)) (snd (sy_lc y))) docs lists
       /\ Forall2 (fun d x => fst x = fst d) docs files /\ Forall2 (fun d l => forall name, defined_in L (snd d) name -> exists y, In y l /\ sy_name y = name) docs lists).
  { intros docs files FI F. induction F as [|d x docs files H F IH]; [exists []; repeat split; constructor|].
    destruct IH as (lists & A & B & D & G); [intros p d' J; apply (FI p); right; exact J|]. destruct d as (p & d). destruct (FI p d (or_introl eq_refl)) as (X & Y & Z). destruct (ONE (p, d) x X Y Z H) as (l & E1 & E2 & E3).
    exists (l :: lists). split; [constructor; assumption|]. split; [constructor; auto|]. split; constructor; auto. exact (proj1 H). }
  destruct (ALL docs1 files1 (fun p d J => FINE p d (in_or_app _ _ _ (or_introl J))) I1) as (lists1 & A1 & B1 & D1 & G1).
  destruct (ALL docs2 files2 (fun p d J => FINE p d (in_or_app _ _ _ (or_intror J))) I2) as (lists2 & A2 & B2 & D2 & _).
  destruct (C33_query lower lower_chars P limit types q lists1 lists2 files1 files2 A1 A2) as (r & EQ & CASES). unfold workspace_symbols. rewrite EQ. cbn [bind]. eexists. split; [reflexivity|]. split.
  - intros name from to p J. apply in_map_iff in J. destruct J as ((p0 & y) & EY & J). cbn [fst snd] in EY. injection EY as EN EL <-.
    assert (SOUND : forall docs lists files qq rr, Forall2 (fun l x => indexes lower l (snd x)) lists files -> Forall2 (fun d l => forall y, In y l -> defined_at L (snd d) (sy_name y) (fst (sy_lc y)) (snd (sy_lc y))) docs lists ->
       Forall2 (fun (d : P * document) (x : P * file_symbols) => fst x = fst d) docs files -> visited lower limit types qq lists files rr -> In (p0, y) rr -> exists d, In (p0, d) docs /\ defined_at L d name from to).
    { intros docs lists files qq rr A B D V IN. destruct (C33_sound lower P limit types qq lists files rr p0 y V (Forall2_length _ _ _ _ _ A) IN) as (i & l & x & NL & NF & _ & IY).
      assert (ND : exists d, nth_error docs i = Some d). { destruct (nth_error docs i) as [d|] eqn:N; [exists d; reflexivity|]. apply nth_error_None in N. pose proof (Forall2_length _ _ _ _ _ B). assert (i < List.length lists) by (apply nth_error_Some; congruence). lia. }
      destruct ND as (d & ND). pose proof (Forall2_nth _ _ _ _ _ B i d l ND NL) as DA. cbn beta in DA. pose proof (Forall2_nth _ _ _ _ _ D i d (p0, x) ND NF) as EP. cbn in EP. subst p0.
      exists (snd d). split; [destruct d; eapply nth_error_In; exact ND|]. specialize (DA y IY). rewrite EN, EL in DA. exact DA. }
    destruct CASES as [(_ & V)|[(_ & _ & V)|(_ & _ & V)]].
    + destruct (SOUND docs1 lists1 files1 _ _ A1 B1 D1 V J) as (d & X & Y). exists d. split; [apply in_or_app; left; exact X|exact Y].
    + destruct (SOUND docs1 lists1 files1 _ _ A1 B1 D1 V J) as (d & X & Y). exists d. split; [apply in_or_app; left; exact X|exact Y].
    + destruct (SOUND docs2 lists2 files2 _ _ A2 B2 D2 V J) as (d & X & Y). exists d. split; [apply in_or_app; right; exact X|exact Y].
  - intros HASH LIM p d name J DF SS. rewrite map_length in LIM. destruct CASES as [(_ & V)|[(N & _)|(N & _)]]; [|contradiction..].
    apply In_nth_error in J. destruct J as (i & ND). pose proof (Forall2_length _ _ _ _ _ A1) as LA. pose proof (Forall2_length _ _ _ _ _ D1) as LD.
    assert (IL : i < List.length docs1) by (apply nth_error_Some; congruence).
    destruct (nth_error lists1 i) as [l|] eqn:NL; [|apply nth_error_None in NL; lia]. destruct (nth_error files1 i) as [[p' x]|] eqn:NF; [|apply nth_error_None in NF; lia].
    pose proof (Forall2_nth _ _ _ _ _ D1 i _ _ ND NF) as EP. cbn in EP. subst p'. destruct (Forall2_nth _ _ _ _ _ G1 i _ _ ND NL name DF) as (y & JY & EN).
    assert (FN : exists z, first_named lower l z /\ key_of lower z = key_of lower y /\ In z l).
    { clear -JY. induction l as [|a l IH]; [destruct JY|]. destruct (list_eq_dec Nat.eq_dec (key_of lower a) (key_of lower y)) as [E|E].
      - exists a. split; [exists [], l; split; [reflexivity|intros x []]|]. split; [exact E|left; reflexivity].
      - destruct JY as [->|JY]; [congruence|]. destruct (IH JY) as (z & (pre & post & -> & N) & EZ & JZ). exists z. split; [exists (a :: pre), post; split; [reflexivity|]|split; [exact EZ|right; exact JZ]].
        intros x0 [<-|J]; [congruence|exact (N x0 J)]. }
    destruct FN as (z & FZ & KZ & JZ). assert (AN : answers lower types (mkQuery (lower_chars (remove Nat.eq_dec 35 q)) true) l z).
    { split; [exact FZ|]. split; [cbn [q_query]; rewrite KZ; unfold key_of; rewrite EN; exact SS|left; reflexivity]. }
    pose proof (C33_complete lower P limit types _ lists1 files1 r i l p x z V LA LIM NL NF AN) as IR. exists (sy_name z), (sy_lc z). split.
    + apply in_map_iff. exists (p, z). split; [reflexivity|exact IR].
    + unfold key_of in KZ. rewrite EN in KZ. exact KZ.
Qed.
Print Assumptions C85_workspace.

(** ** A session *)

(** Rust is document 0. A file is opened, the editor is switched to it, and a space is typed after [let]; another file, with one statement. *)
Notation real_rs := (rust_shipped ascii_U one_char).
Definition is_rust (w : nat) : bool := w =? 0.
Definition no_texts : nat -> document := fun _ => [].
Notation rust_session := (handle_all real_rs None is_rust 300 (mkSession no_texts (fun _ => None))).
Definition letting : list (event * option nat) := [(Opened 0 (chars_of (t "fn main() { let}")), Some 0); (Changed 0 15 15 (chars_of (t " ")), Some 0)].
Definition printing : list (event * option nat) := [(Opened 0 (chars_of (t "use a::b; fn f() { foo.pd$ }")), Some 0)].
(** What the editor gets, [None] if something panics. *)
Definition obtained {A} (r : res session) (k : session -> res (session * A)) : option A := match r with Ok s => match k s with Ok (_, a) => Some a | _ => None end | _ => None end.

Lemma well_letting : reparsed_well real_rs is_rust 300 (mkSession no_texts (fun _ => None)) letting.
Proof.
  set (s0 := mkSession no_texts (fun _ => None)).
  assert (E : match handle real_rs None is_rust 300 s0 (Opened 0 (chars_of (t "fn main() { let}")), Some 0) with
    | Ok s1 => match handle real_rs None is_rust 300 s1 (Changed 0 15 15 (chars_of (t " ")), Some 0) with
        | Ok s2 => match docs s2 0 with Some y => parse_file real_rs 300 (List.concat (firstn 15 (texts s1 0) ++ chars_of (t " ") ++ skipn 15 (texts s1 0))) = Ok y | None => True end
        | _ => True end
    | _ => True end) by (vm_compute; reflexivity).
  unfold letting. cbn [reparsed_well fst]. split; [exact I|]. intros s1 H1. rewrite H1 in E. split; [|intros s2 _; exact I].
  intros x _ _ s2 y H2 D. rewrite H2, D in E. exact E.
Qed.

Lemma rust_chars : forall s, forallb (fun b => b <? 128) s = true -> characters (chars_of s) /\ ascii_document (chars_of s).
Proof.
  intros s. unfold characters, ascii_document. induction s as [|b s IH]; [split; constructor|]. cbn [forallb chars_of map]. intros H. apply andb_true_iff in H. destruct H as (H1 & H2). destruct (IH H2) as (A & B).
  apply Nat.ltb_lt in H1. split; constructor; auto. split.
  - split; [|constructor]. unfold is_cont. destruct (128 <=? b) eqn:E; [apply Nat.leb_le in E; lia|reflexivity].
  - intros b' E. injection E as <-. unfold char_len. apply Nat.ltb_lt in H1. rewrite H1. reflexivity.
Qed.

Example C85_case : tables_ok ascii_U /\ err_ok one_char /\
  (exists s, rust_session letting = Ok s /\ up_to_date real_rs is_rust s /\ (forall w, characters (texts s w)) /\ texts s 0 = chars_of (t "fn main() { let }") /\
     ascii_document (texts s 0) /\ exists f inc, parse_file real_rs 300 (List.concat (texts s 0)) = Ok (f, inc) /\ let_begun f 16) /\
  proper_events no_texts printing /\ no_typing is_rust printing /\
  match rust_session [(Opened 0 (chars_of (t "fn f( { }")), Some 0)] with
  | Ok s => colours (draw is_rust rust_highlight (fun _ _ => Ok []) 0 (Some 0) s (mkScreen (fun _ _ => []) (fun _ => []))) 0 HError | _ => [] end = [(6, 9); (9, 9); (9, 9)] /\
  obtained (rust_session letting) (fun s => on_type real_rs is_rust 300 (Some 0) s 0 16 32) = Some (Some [((16, 16), [59])]) /\
  option_map (option_map (after_edits (chars_of (t "use a::b; fn f() { foo.pd$ }")))) (obtained (rust_session printing) (fun s => on_type real_rs is_rust 300 (Some 0) s 0 26 36))
    = Some (Some (t "use a::b; fn f() { eprintln!(""foo = {:?}"", foo); }")) /\
  obtained (rust_session printing) (fun s => moved_to real_rs is_rust 300 (Some 0) s 0 20) = Some (Some (t "fn f")) /\
  obtained (rust_session printing) (fun s => rust_symbols real_rs is_rust 300 (Some 0) s 0) = Some [(t "f", (10, 28))] /\
  obtained (rust_session printing) (fun s => rust_offers real_rs is_rust 300 (Some 0) s 0 (7, 7)) = Some [add_braces_id] /\
  obtained (rust_session printing) (fun s => rust_runs real_rs is_rust 300 (Some 0) s (7, 7) add_braces_id) = Some (Some (0, [((7, 7), t "{b}"); ((7, 8), [])])).
Proof.
  split; [exact ascii_U_ok|]. split; [exact one_char_ok|]. split.
  { destruct (rust_session letting) as [s| |] eqn:E; [|vm_compute in E; discriminate E..]. exists s. split; [reflexivity|].
    destruct (C85_session ascii_U one_char is_rust no_texts letting 300 s well_letting E) as (T & UP). split; [exact UP|].
    assert (T0 : texts s 0 = chars_of (t "fn main() { let }")) by (rewrite T; vm_compute; reflexivity).
    assert (CA : characters (texts s 0) /\ ascii_document (texts s 0)) by (rewrite T0; apply rust_chars; reflexivity).
    split. { intros [|w]; [exact (proj1 CA)|]. rewrite T. constructor. }
    split; [exact T0|]. split; [exact (proj2 CA)|].
    destruct (parse_file real_rs 300 (List.concat (texts s 0))) as [[f inc]| |] eqn:P; [|rewrite T0 in P; vm_compute in P; discriminate P..].
    exists f, inc. split; [reflexivity|]. pose proof (parsed_rust ascii_U one_char ascii_U_ok one_char_ok 300 (texts s 0) (f, inc) (proj1 CA) P) as G. cbn [fst] in G.
    assert (AS : after_space_typed f 16 = Ok (Some [59])).
    { assert (X : match parse_file real_rs 300 (List.concat (chars_of (t "fn main() { let }"))) with Ok (f, _) => after_space_typed f 16 | _ => Panic end = Ok (Some [59])) by (vm_compute; reflexivity). rewrite T0 in P. rewrite P in X. exact X. }
    destruct (rust_facts _ _ _ G) as (T1 & WF & TX & CT & _). destruct (space_ok f T1 WF CT 16 ltac:(lia)) as [(B & _)|(_ & B)]; [rewrite TX, T0; vm_compute; lia|exact B|congruence]. }
  split. { cbn [proper_events printing]. split; [|exact I]. apply rust_chars. reflexivity. }
  split. { constructor; [exact I|constructor]. }
  vm_compute. repeat split; reflexivity.
Qed.

(** ** Symbols in a workspace with one file *)
Definition found (d : document) (q : bytes) : option (list (information nat)) :=
  match parse_file real_rs 300 (List.concat d) with
  | Ok (f, _) => match file_symbols_new (fun x => x) f symbol_types RS_IDENT with
      | Ok x => match workspace_symbols (fun x => x) 5 symbol_types [(0, x)] [(0, x)] q with Ok r => Some r | _ => None end
      | _ => None end
  | _ => None end.
Definition two_lines : document := chars_of (t "fn a(){}" ++ [10] ++ t "struct ab;").
Example C85_workspace_case : characters two_lines /\ ascii_document two_lines /\ ~ In 13 (List.concat two_lines) /\
  (exists x, @indexed nat real_rs (fun x => x) (0, two_lines) (0, x)) /\
  found two_lines (t "a") = Some [(t "a", ((0, 0), (0, 8)), 0); (t "ab", ((1, 0), (1, 10)), 0)] /\ vs_offset two_lines 1 0 = 9 /\ vs_offset two_lines 1 10 = 19.
Proof.
  split; [apply rust_chars; reflexivity|]. split; [apply rust_chars; reflexivity|]. split; [vm_compute; intuition discriminate|]. split.
  { assert (X : match parse_file real_rs 300 (List.concat two_lines) with Ok (f, _) => match file_symbols_new (fun x => x) f symbol_types RS_IDENT with Ok _ => true | _ => false end | _ => false end = true) by (vm_compute; reflexivity).
    destruct (parse_file real_rs 300 (List.concat two_lines)) as [[f inc]| |] eqn:P; try discriminate X. destruct (file_symbols_new (fun x => x) f symbol_types RS_IDENT) as [x| |] eqn:F; try discriminate X.
    exists x. split; [reflexivity|]. exists 300, f, inc. auto. }
  vm_compute. repeat split; reflexivity.
Qed.

(** ** What is not so *)

(** "A typed change of an ASCII text leaves the file of the new text": the nodes of the old tree are used again although they are inside of a type
    now, where a comparison is parsed in another way. Something is pasted at the start of the text. *)
Definition wrapping : list (event * option nat) := [(Opened 0 (chars_of (t "const C:u=a<b>c;0}]>;")), Some 0); (Changed 0 0 0 (chars_of (t "type T=V<[u;{")), Some 0)].
Theorem C85_typing_refuted : exists n m, n <> m /\ proper_events no_texts wrapping /\ ascii_document (current no_texts wrapping 0) /\
  match rust_session wrapping with Ok s => option_map (fun x => List.length (f_nodes (fst x))) (docs s 0) | _ => None end = Some n /\
  match parse_file real_rs 300 (List.concat (current no_texts wrapping 0)) with Ok (f, _) => Some (List.length (f_nodes f)) | _ => None end = Some m.
Proof.
  exists 59, 61. split; [discriminate|]. split. { cbn [proper_events wrapping]. split; [apply rust_chars; reflexivity|]. split; [|exact I]. split; [cbn; lia|apply rust_chars; reflexivity]. }
  split. { change (current no_texts wrapping 0) with (chars_of (t "type T=V<[u;{const C:u=a<b>c;0}]>;")). apply rust_chars. reflexivity. }
  split; vm_compute; reflexivity.
Qed.
Print Assumptions C85_typing_refuted.

(** "The plugin answers at every position": moving the cursor to the start of a Rust document throws, and so does typing a dollar sign as its first
    character. *)
Theorem C85_start_refuted : forall U err known s u active, tables_ok U -> err_ok err -> up_to_date (rust_shipped U err) known s -> (forall w, characters (texts s w)) -> known u = true ->
  exists fuel, forall more, moved_to (rust_shipped U err) known (fuel + more) active s u 0 = Panic /\ on_type (rust_shipped U err) known (fuel + more) active s u 1 36 = Panic.
Proof.
  intros U err known s u active TO ER UP C K. destruct (rust_fetched U err known TO ER s u active UP C K) as (fuel & H). exists fuel. intros more. destruct (H more) as (s' & f & inc & _ & _ & _ & E).
  unfold moved_to, on_type. rewrite E. split; reflexivity.
Qed.
Print Assumptions C85_start_refuted.

(** "The places of the workspace's symbols are right for every text": behind a character with two bytes, and behind a carriage return, they are not. *)
Definition accented : document := chars_of (t "/*") ++ [[195; 169]] ++ chars_of (t "*/struct S;").
Definition returned : document := chars_of (t "mod a;" ++ [13] ++ t "fn b(){}").
Theorem C85_column_refuted : characters accented /\ characters returned /\
  (exists l c to, found accented (t "S") = Some [(t "S", ((l, c), to), 0)] /\ units (firstn 5 accented) = 5 /\ List.concat (skipn 5 accented) = t "struct S;" /\ vs_offset accented l c = 6) /\
  (exists l c to, found returned (t "b") = Some [(t "b", ((l, c), to), 0)] /\ units (firstn 7 returned) = 7 /\ List.concat (skipn 7 returned) = t "fn b(){}" /\ vs_offset returned l c = 6).
Proof.
  split; [vm_compute; are_characters|]. split; [apply rust_chars; reflexivity|].
  split; do 3 eexists; (split; [vm_compute; reflexivity|]); vm_compute; auto.
Qed.
Print Assumptions C85_column_refuted.

(** "Every type whose name is asked for is found": a function of the same name hides it, here also if functions are not asked for. *)
Definition hiding : document := chars_of (t "fn S(){} struct S{}").
Theorem C85_hidden_refuted : defined_at real_rs hiding (t "S") (0, 8) (0, 19) /\ found hiding (t "S") = Some [(t "S", ((0, 0), (0, 8)), 0)] /\ found hiding (t "#S") = Some [(t "S", ((0, 0), (0, 8)), 0)].
Proof.
  split; [|vm_compute; auto].
  assert (X : match parse_file real_rs 300 (List.concat hiding) with Ok (f, _) => existsb (fun n => match symbol_entry f n with [(x, r)] => bytes_eqb x (t "S") && (rstart r =? 8) && (rend r =? 19) | _ => false end) (seq 0 (List.length (f_nodes f))) | _ => false end = true) by (vm_compute; reflexivity).
  destruct (parse_file real_rs 300 (List.concat hiding)) as [[f inc]| |] eqn:P; try discriminate X. apply existsb_exists in X. destruct X as (n & _ & X).
  destruct (symbol_entry f n) as [|(x & r) [|? ?]] eqn:E; try discriminate X. apply andb_true_iff in X. destruct X as (X & X3). apply andb_true_iff in X. destruct X as (X1 & X2).
  apply bytes_eqb_spec in X1. apply Nat.eqb_eq in X2, X3. exists 300, f, inc, n. split; [exact P|]. rewrite E. subst x. destruct r as [a b]. cbn [rstart rend] in *. subst a b. reflexivity.
Qed.
Print Assumptions C85_hidden_refuted.
