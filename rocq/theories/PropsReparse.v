(** Editing a file is the same as parsing the edited text. *)
From Coq Require Import List Arith Bool Lia.
From Verif Require Import Base BaseFacts TextModel EditModel LexModel LexSpec LexProofs TreeModel GrammarModel ParserModel ConvertModel
  ForestSpec PegSpec SpanSpec WellFormed CheckProofs GrammarData ExampleLang PropsCheck ReparseModel ReparseSpec ReparseProofs ReparseExample.
Import ListNotations.

(** * C29: incremental reparsing *)

(** The text of an edited file is the edited text, in every language. *)
Theorem C29_text : forall L fuel f inc ops f' inc', reparse_file L fuel f inc ops = Ok (f', inc') ->
  apply ops (as_text (f_text f)) = Ok (f_text f').
Proof. intros L fuel f inc ops f' inc' H. destruct (reparse_applies _ _ _ _ _ _ H) as (new & m & AP & <- & _). exact AP. Qed.
Print Assumptions C29_text.

(** Well-formed grammars give every text a tree. *)
Lemma well_formed_meaningful : forall L c, well_formed (l_g L) c = true -> plain_spellings (l_g L) = true ->
  progressing (l_lexer L) -> (forall b r, l_ws L (tk_ty (l_lexer L (b :: r))) = true -> blank b = true) -> meaningful L.
Proof.
  intros L c WF PL PR BL txt toks LX. destruct (lex_ok (l_lexer L) txt PR) as (ts & LX' & TK). rewrite LX in LX'. injection LX' as <-.
  split; [|eapply plain_no_ws_byte; eauto]. exact (well_formed_tree (l_g L) c (l_ws L) txt toks (tokenizes_lens _ PR _ _ TK) WF).
Qed.

(** Without cached rules: the edit of a parsed file gives the same result as parsing the new text from scratch, tree,
    tokens and events, and panics exactly when that would. *)
Theorem C29_uncached : forall L fuel0 fuel old f inc ops new,
  progressing (l_lexer L) -> one_byte_lookahead (l_lexer L) -> uncached (l_g L) -> meaningful L ->
  parse_file L fuel0 old = Ok (f, inc) -> apply ops (as_text old) = Ok new ->
  reparse_file L fuel f inc ops = parse_file L fuel new.
Proof. intros L fuel0 fuel old f inc ops new PR ONE U ME H AP. exact (reparse_uncached L PR _ (one_byte_safe _ PR ONE) fuel0 fuel old f inc ops new I U ME H AP). Qed.
Print Assumptions C29_uncached.

(** Also after any number of edits, one after the other, and for any grammar. *)
Theorem C29_uncached_history : forall L fuel old history f inc x,
  progressing (l_lexer L) -> one_byte_lookahead (l_lexer L) -> uncached (l_g L) ->
  parse_file L fuel old = Ok (f, inc) -> edit_all L fuel (f, inc) history = Ok x ->
  exists new, apply_all history old = Ok new /\ parse_file L fuel new = Ok x.
Proof. intros L fuel old history f inc x PR ONE U H ED. exact (edits_uncached L _ (one_byte_safe _ PR ONE) fuel U history old f inc x (all_true _ _) H ED). Qed.
Print Assumptions C29_uncached_history.

(** With cached rules whose outcome depends only on the text they consumed, which are not used inside predicates and
    layers, and edits that read the old text from left to right: whatever the edits return is what parsing the final
    text from scratch returns. *)
Theorem C29_cached : forall L q qa fuel0 fuel old f inc ops x,
  progressing (l_lexer L) -> one_byte_lookahead (l_lexer L) -> meaningful L ->
  quiet (l_g L) q qa -> cached_self_contained L -> ascending ops ->
  parse_file L fuel0 old = Ok (f, inc) -> reparse_file L fuel f inc ops = Ok x ->
  exists new fuel1, apply ops (as_text old) = Ok new /\ forall more, parse_file L (fuel1 + more) new = Ok x.
Proof.
  intros L q qa fuel0 fuel old f inc ops x PR ONE ME QU SC AS H R.
  exact (reparse_cached L PR (fun _ => True) _ (fun _ _ _ _ _ => conj I I) (one_byte_safe _ PR ONE) q qa fuel0 fuel old f inc ops x I ME QU (self_contained_all_movable _ _ SC) AS H R).
Qed.
Print Assumptions C29_cached.

Theorem C29_cached_history : forall L q qa fuel0 fuel old history f inc x,
  progressing (l_lexer L) -> one_byte_lookahead (l_lexer L) -> meaningful L ->
  quiet (l_g L) q qa -> cached_self_contained L -> Forall ascending history ->
  parse_file L fuel0 old = Ok (f, inc) -> edit_all L fuel (f, inc) history = Ok x ->
  exists new fuel1, apply_all history old = Ok new /\ forall more, parse_file L (fuel1 + more) new = Ok x.
Proof.
  intros L q qa fuel0 fuel old history f inc x PR ONE ME QU SC AS H ED.
  exact (edits_cached L PR (fun _ => True) _ (fun _ _ _ _ _ => conj I I) (one_byte_safe _ PR ONE) q qa fuel ME QU (self_contained_all_movable _ _ SC) history fuel0 old f inc x (all_true _ _) AS H ED).
Qed.
Print Assumptions C29_cached_history.

(** Edits made with the builder read the old text from left to right. *)
Fixpoint left_to_right (lo : nat) (ops : list edit_op) : Prop :=
  match ops with
  | [] => True
  | Copy r :: rest => lo <= rstart r <= rend r /\ left_to_right (rend r) rest
  | Insert _ :: rest => left_to_right lo rest
  end.

Lemma ltr_weaken : forall ops lo hi, lo <= hi -> left_to_right hi ops -> left_to_right lo ops.
Proof. induction ops as [|[r|t] ops IH]; intros lo hi L H; cbn in *; [auto|split; [lia|tauto]|eauto]. Qed.

Lemma ltr_app : forall a lo b, left_to_right lo (a ++ b) -> left_to_right lo b.
Proof.
  induction a as [|[r|t] a IH]; intros lo b H; cbn in *; [auto| |auto]. destruct H as [R H]. apply (ltr_weaken _ _ (rend r)); [lia|auto].
Qed.

Lemma ltr_ascending : forall ops lo, left_to_right lo ops -> ascending ops.
Proof.
  intros ops lo H pre c mid c' post ->. apply ltr_app in H. cbn in H. destruct H as [_ H]. apply ltr_app in H. cbn in H. lia.
Qed.

(** the builder's ops, read backwards from its position *)
Lemma ltr_snoc : forall ops lo hi r, left_to_right lo ops ->
  (forall c, In (Copy c) ops -> rend c <= hi) -> lo <= hi -> hi <= rstart r <= rend r -> left_to_right lo (ops ++ [Copy r]).
Proof.
  induction ops as [|[c|t] ops IH]; intros lo hi r H B L R; cbn in *.
  - split; [lia|exact I].
  - destruct H as [RC H]. split; [exact RC|]. apply (IH (rend c) hi r); auto.
  - apply (IH lo hi r); auto.
Qed.

Definition builder_ok (b : edit_builder) : Prop :=
  left_to_right 0 (segments b) /\ forall c, In (Copy c) (segments b) -> rend c <= last_offset b.

Lemma ltr_insert : forall ops lo t, left_to_right lo ops -> left_to_right lo (ops ++ [Insert t]).
Proof. induction ops as [|[c|x] ops IH]; intros lo t H; cbn in *; auto. destruct H. auto. Qed.

Lemma advance_ok : forall b o b', builder_ok b -> advance_to b o = Ok b' -> builder_ok b' /\ last_offset b' = o /\ eb_text_len b' = eb_text_len b.
Proof.
  intros b o b' [A B] H. unfold advance_to in H. destruct (Nat.compare_spec (last_offset b) o) as [EQ|LT|GT]; [| |discriminate].
  - injection H as <-. repeat split; auto.
  - unfold copy_up_to, copy_len, from_len, from_to in H. apply bind_ok in H. destruct H as (len & L & H). unfold usub, guard in *.
    destruct (last_offset b <=? o) eqn:LE; [|discriminate]. injection L as <-.
    apply bind_ok in H. destruct H as (r & R & H). injection H as <-. cbn [segments last_offset eb_text_len].
    assert (RR : rstart r = last_offset b /\ rend r = o).
    { destruct (_ <=? _) in R; [|discriminate]. injection R as <-. cbn. lia. }
    destruct RR as [R1 R2]. split; [|lia]. split; cbn [segments last_offset].
    + apply (ltr_snoc _ 0 (last_offset b)); auto; lia.
    + intros c IN. apply in_app_iff in IN. destruct IN as [IN|[IN|[]]]; [apply B in IN; lia|injection IN as <-; lia].
Qed.

Lemma call_builder_ok : forall b c b', builder_ok b -> run_call b c = Ok b' -> builder_ok b'.
Proof.
  intros b c b' OK H.
  assert (INS : forall b t, builder_ok b -> builder_ok (insert_ b t)).
  { intros b0 t [A B]. split; cbn [insert_ segments last_offset]; [apply ltr_insert; exact A|].
    intros x IN. apply in_app_iff in IN. destruct IN as [IN|[IN|[]]]; [apply B in IN; exact IN|discriminate]. }
  assert (DEL : forall b l, builder_ok b -> builder_ok (delete_len b l)).
  { intros b0 l [A B]. split; cbn [delete_len segments last_offset]; [exact A|]. intros x IN. apply B in IN. lia. }
  destruct c as [o t|r|r t]; cbn [run_call] in H; unfold eb_insert, eb_delete, eb_replace in H;
    apply bind_ok in H; destruct H as (b1 & A1 & H); apply advance_ok in A1; [|exact OK| |exact OK| |exact OK]; destruct A1 as (OK1 & _).
  - injection H as <-. auto.
  - apply bind_ok in H. destruct H as (l & _ & H). injection H as <-. auto.
  - cbn zeta in H. apply bind_ok in H. destruct H as (l & _ & H). injection H as <-. auto.
Qed.

Theorem C29_builder : forall t calls ops, build_edit t calls = Ok ops -> ascending ops.
Proof.
  intros t calls ops H. unfold build_edit in H. apply bind_ok in H. destruct H as (b & B & H). unfold eb_new in B. apply bind_ok in B. destruct B as (l & _ & B).
  assert (OK : builder_ok b) by (injection B as <-; split; cbn; [exact I|tauto]). clear B.
  apply bind_ok in H. destruct H as (b1 & R & H).
  assert (OK1 : builder_ok b1).
  { clear H. revert b b1 OK R. induction calls as [|c calls IH]; intros b b1 OK R; cbn in R; [injection R as <-; exact OK|].
    apply bind_ok in R. destruct R as (b2 & R2 & R). eapply IH; [|exact R]. eapply call_builder_ok; eauto. }
  unfold eb_build in H. apply bind_ok in H. destruct H as (b2 & A & H). injection H as <-. apply advance_ok in A; [|exact OK1]. destruct A as ((A & _) & _).
  eapply ltr_ascending. exact A.
Qed.
Print Assumptions C29_builder.

(** ** The shipped grammars *)

Definition uncachedb (g : grammar) : bool := forallb (fun x => match x with ECached _ => false | _ => true end) (g_rules g).
Lemma uncachedb_ok : forall g, uncachedb g = true -> uncached g.
Proof.
  intros g H e b R. unfold uncachedb in H. rewrite forallb_forall in H. apply nth_error_In in R. apply H in R. discriminate.
Qed.

(** s-expressions and bnf: edits and parsing from scratch agree. *)
Theorem C29_shipped_uncached : forall L fuel0 fuel old f inc ops new, l_g L = sexp_grammar \/ l_g L = bnf_grammar ->
  progressing (l_lexer L) -> one_byte_lookahead (l_lexer L) ->
  (forall b r, l_ws L (tk_ty (l_lexer L (b :: r))) = true -> blank b = true) ->
  parse_file L fuel0 old = Ok (f, inc) -> apply ops (as_text old) = Ok new ->
  reparse_file L fuel f inc ops = parse_file L fuel new.
Proof.
  intros L fuel0 fuel old f inc ops new G PR ONE BL. apply C29_uncached; auto.
  - apply uncachedb_ok. destruct G as [-> | ->]; vm_compute; reflexivity.
  - assert (SH : shipped (l_g L)) by (destruct G as [-> | ->]; constructor).
    destruct (C28_shipped _ SH) as ((c & WF) & PL). eapply well_formed_meaningful; eauto.
Qed.
Print Assumptions C29_shipped_uncached.

(** json and the two grammars of the test suite: any history of edits. *)
Theorem C29_shipped_history : forall L fuel old history f inc x, In (l_g L) [sexp_grammar; bnf_grammar; json_grammar; arith_grammar; weird_grammar] ->
  progressing (l_lexer L) -> one_byte_lookahead (l_lexer L) ->
  parse_file L fuel old = Ok (f, inc) -> edit_all L fuel (f, inc) history = Ok x ->
  exists new, apply_all history old = Ok new /\ parse_file L fuel new = Ok x.
Proof.
  intros L fuel old history f inc x G PR ONE. apply C29_uncached_history; auto. apply uncachedb_ok.
  destruct G as [<-|[<-|[<-|[<-|[<-|[]]]]]]; vm_compute; reflexivity.
Qed.
Print Assumptions C29_shipped_history.

(** The grammar of fall itself uses its cached rule only where the theorem allows it. *)
Definition quiet_ruleb (g : grammar) (q qa : nat -> bool) (e : nat) (x : expr) : bool :=
  match x with
  | EPub _ b _ | EPubReplace _ b | ERep b | EOpt b | EEnter _ b | EExit _ b => implb (q e) (q b)
  | EOr l | EAnd l _ => implb (q e) (forallb q l)
  | EToken _ | EContextual _ _ | EEof | EAny | EIsIn _ => true
  | EWithSkip f b => q f && implb (q e) (q b)
  | ENot b => q b
  | ELayer l b => q l && q b
  | EPratt t => implb (q e) (forallb q (pt_atoms t) && forallb (fun x => q (px_op x)) (pt_prefixes t)
      && forallb (fun x => q (ix_op x)) (pt_infixes t))
  | ECall b l => implb (q e) (q b)
      && forallb (fun x => implb (qa (fst x)) (match nth_error (g_rules g) (snd x) with Some (EVar j) => qa j | _ => q (snd x) end)) l
  | EVar i => implb (q e) (qa i)
  | EPrevIs _ => false
  | EInject a b => implb (q e) (q a && q b)
  | ECached _ => negb (q e)
  end.

Fixpoint check_from (f : nat -> expr -> bool) (e : nat) (l : list expr) : bool :=
  match l with [] => true | x :: r => f e x && check_from f (S e) r end.

Lemma check_from_ok : forall f l e, check_from f e l = true -> forall i x, nth_error l i = Some x -> f (e + i) x = true.
Proof.
  intros f. induction l as [|y l IH]; intros e H i x N; [destruct i; discriminate|]. cbn in H. rewrite andb_true_iff in H. destruct H as [A B].
  destruct i as [|i]; cbn in N; [injection N as ->; rewrite Nat.add_0_r; exact A|]. replace (e + S i) with (S e + i) by lia. eapply IH; eauto.
Qed.

Lemma implb_ok : forall a b, implb a b = true -> a = true -> b = true.
Proof. intros [] [] H; cbn in H; congruence. Qed.

Lemma quiet_ok : forall g q qa, check_from (quiet_ruleb g q qa) 0 (g_rules g) = true -> quiet g q qa.
Proof.
  intros g q qa H e x R. apply (check_from_ok _ _ _ H) in R. cbn [Nat.add] in R.
  destruct x; cbn [quiet_ruleb quiet_rule] in *; try exact I; try (exact (implb_ok _ _ R)); try exact R.
  - intros Q a IN. pose proof (implb_ok _ _ R Q) as F. rewrite forallb_forall in F. auto.
  - intros Q a IN. pose proof (implb_ok _ _ R Q) as F. rewrite forallb_forall in F. auto.
  - rewrite andb_true_iff in R. destruct R as [A B]. split; [exact A|exact (implb_ok _ _ B)].
  - rewrite andb_true_iff in R. exact R.
  - intros Q. pose proof (implb_ok _ _ R Q) as F. rewrite !andb_true_iff, !forallb_forall in F. destruct F as [[A B] C].
    split; [exact A|]. split; [exact B|exact C].
  - rewrite andb_true_iff, forallb_forall in R. destruct R as [A B]. split; [exact (implb_ok _ _ A)|].
    intros i a IN QA. specialize (B _ IN). cbn [fst snd] in B. pose proof (implb_ok _ _ B QA) as C.
    destruct (nth_error (g_rules g) a) as [[]|]; exact C.
  - discriminate.
  - intros Q. pose proof (implb_ok _ _ R Q) as F. rewrite andb_true_iff in F. exact F.
  - destruct (q e); [discriminate|reflexivity].
Qed.

(** the start rule and what leads from it to the cached rule *)
Definition fall_loud : list nat := [0; 2; 3; 34; 35; 36; 37; 53; 77].
Definition fall_quiet (e : nat) : bool := negb (memb e fall_loud).

Lemma fall_is_quiet : quiet fall_grammar fall_quiet (fun _ => true).
Proof. apply quiet_ok. vm_compute. reflexivity. Qed.

(** For fall, what remains is the condition on its one cached rule, the body of [syn_rule]. *)
Theorem C29_fall : forall L fuel0 fuel old history f inc x, l_g L = fall_grammar ->
  progressing (l_lexer L) -> one_byte_lookahead (l_lexer L) ->
  (forall b r, l_ws L (tk_ty (l_lexer L (b :: r))) = true -> blank b = true) ->
  self_contained L 76 -> Forall ascending history ->
  parse_file L fuel0 old = Ok (f, inc) -> edit_all L fuel (f, inc) history = Ok x ->
  exists new fuel1, apply_all history old = Ok new /\ forall more, parse_file L (fuel1 + more) new = Ok x.
Proof.
  intros L fuel0 fuel old history f inc x G PR ONE BL SC. apply (C29_cached_history L fall_quiet (fun _ => true)); auto.
  - assert (SH : shipped (l_g L)) by (rewrite G; constructor). destruct (C28_shipped _ SH) as ((c & WF) & PL). eapply well_formed_meaningful; eauto.
  - rewrite G. exact fall_is_quiet.
  - intros e k R. rewrite G in R. assert (k = 76); [|subst; exact SC].
    assert (OK : check_from (fun _ x => match x with ECached k => k =? 76 | _ => true end) 0 (g_rules fall_grammar) = true) by (vm_compute; reflexivity).
    apply (check_from_ok _ _ _ OK) in R. apply Nat.eqb_eq in R. exact R.
Qed.
Print Assumptions C29_fall.

(** ** Examples *)

(** The running example meets the conditions of [C29_uncached]. *)
Lemma calc_one : one_byte_lookahead calc_lexer.
Proof.
  assert (LEN : forall txt, tk_len (calc_lexer txt) = 1).
  { intros [|b r]; [reflexivity|]. unfold calc_lexer. do 46 (destruct b as [|b]; [reflexivity|]). destruct ((48 <=? _) && _); reflexivity. }
  intros u v t. unfold t. intros _ L E. rewrite LEN in *. destruct u as [|a u]; [cbn in L; lia|]. destruct v as [|b v]; [discriminate|].
  cbn [firstn] in E. injection E as -> _. reflexivity.
Qed.

Lemma calc_blank : forall b r, calc_ws (tk_ty (calc_lexer (b :: r))) = true -> blank b = true.
Proof.
  intros b r H. destruct (Nat.leb_spec b 32) as [L|L]; [unfold blank; apply Nat.leb_le in L; rewrite L; reflexivity|]. exfalso.
  revert H. unfold calc_lexer, calc_ws. do 46 (destruct b as [|b]; [cbn in *; first [lia|discriminate]|]). destruct ((48 <=? _) && _); discriminate.
Qed.

Example C29_uncached_inst : progressing (l_lexer calc) /\ one_byte_lookahead (l_lexer calc) /\ uncached (l_g calc) /\ meaningful calc
  /\ exists f inc new, parse_file calc 20 calc_text = Ok (f, inc)
     /\ apply [Copy (mkRange 0 2); Insert [42]; Copy (mkRange 3 9)] (as_text calc_text) = Ok new
     /\ (exists x, reparse_file calc 20 f inc [Copy (mkRange 0 2); Insert [42]; Copy (mkRange 3 9)] = Ok x /\ fst x <> f).
Proof.
  split; [exact calc_progress|]. split; [exact calc_one|]. split; [apply uncachedb_ok; reflexivity|].
  split; [apply (well_formed_meaningful calc calc_cert); [vm_compute; reflexivity|vm_compute; reflexivity|exact calc_progress|exact calc_blank]|].
  do 3 eexists. split; [vm_compute; reflexivity|]. split; [vm_compute; reflexivity|]. eexists. split; [vm_compute; reflexivity|]. discriminate.
Qed.

(** A grammar with a cached rule meets the conditions of [C29_cached_history], and the cache is used: in "(a) (a)"
    the second item is kept when the first is removed, and its events come from there. *)
Definition boxes_cert : cert := mkCert
  [mkInfo 7 [] [] true sh_node true true; mkInfo 6 [] [] true (mkShape true false false true) true true;
   mkInfo 5 [] [] false (mkShape false false false true) true false; mkInfo 1 [] [] true sh_nil true false;
   mkInfo 4 [] [] false (mkShape false false false true) true false; mkInfo 0 [] [] true sh_nil true false;
   mkInfo 3 [] [] false (mkShape false false false true) true false; mkInfo 0 [] [] false (mkShape false false false true) true false;
   mkInfo 2 [] [] false sh_node true false; mkInfo 1 [] [] false (mkShape false false false true) true false;
   mkInfo 0 [] [] false (mkShape false false false true) true false; mkInfo 0 [] [] false (mkShape false false false true) true false;
   mkInfo 0 [] [] false (mkShape false false false true) true false] [].

Lemma letter_blank : forall b r, letter_ws (tk_ty (letter_lexer (b :: r))) = true -> blank b = true.
Proof.
  intros b r H. cbn in H. destruct (Nat.leb_spec b 32) as [L|L]; [unfold blank; apply Nat.leb_le in L; rewrite L; reflexivity|]. exfalso.
  revert H. unfold letter_ws, letter_type. do 100 (destruct b as [|b]; [cbn in *; first [lia|discriminate]|]). discriminate.
Qed.

Definition boxes_text : bytes := [40; 97; 41; 32; 40; 97; 41].

Example C29_cached_inst : progressing (l_lexer boxes) /\ one_byte_lookahead (l_lexer boxes) /\ meaningful boxes
  /\ quiet (l_g boxes) (fun e => negb (memb e [0; 1; 2; 4; 6])) (fun _ => true) /\ cached_self_contained boxes
  /\ Forall ascending [[Copy (mkRange 3 7)]; [Copy (mkRange 0 4); Insert [32; 40]]]
  /\ exists f inc x m, parse_file boxes 20 boxes_text = Ok (f, inc)
     /\ edit_all boxes 20 (f, inc) [[Copy (mkRange 3 7)]; [Copy (mkRange 0 4); Insert [32; 40]]] = Ok x
     /\ salvage (i_events inc) (i_tokens inc) (l_ws boxes) [Copy (mkRange 3 7)] = Ok m /\ m <> [].
Proof.
  split; [exact letter_progress|]. split; [exact letter_lookahead|].
  split; [apply (well_formed_meaningful boxes boxes_cert); [vm_compute; reflexivity|vm_compute; reflexivity|exact letter_progress|exact letter_blank]|].
  split; [apply quiet_ok; vm_compute; reflexivity|]. split; [exact boxes_cached|].
  split.
  { repeat constructor; apply (ltr_ascending _ 0); cbn; lia. }
  do 4 eexists. split; [vm_compute; reflexivity|]. split; [vm_compute; reflexivity|]. split; [vm_compute; reflexivity|]. discriminate.
Qed.

(** ** Where it fails *)

(** what an edit gives, and what parsing the new text gives *)
Definition differ (L : language) (old : bytes) (ops : list edit_op) : Prop :=
  exists f inc new x y, parse_file L 30 old = Ok (f, inc) /\ apply ops (as_text old) = Ok new
    /\ reparse_file L 30 f inc ops = Ok x /\ parse_file L 30 new = Ok y /\ f_nodes (fst x) <> f_nodes (fst y).

Ltac witness := do 5 eexists; split; [vm_compute; reflexivity|]; split; [vm_compute; reflexivity|];
  split; [vm_compute; reflexivity|]; split; [vm_compute; reflexivity|]; discriminate.

(** A cached rule that looks past what it consumes: item = a b?, "ac" edited to "ab". The reused item stays "a". *)
Definition looks_ahead : language :=
  letters [EPub 7 1 false; ERep 2; EAnd [3; 4] None; ENot 5; EOr [6; 11]; EEof; ECached 7; EPub 8 8 false;
           EAnd [9; 10] None; EToken 2; EOpt 12; EAny; EToken 3].
Theorem C29_lookahead_refuted : exists ops, progressing (l_lexer looks_ahead) /\ one_byte_lookahead (l_lexer looks_ahead)
  /\ ascending ops /\ differ looks_ahead [97; 99] ops.
Proof.
  exists [Copy (mkRange 0 1); Insert [98]]. split; [exact letter_progress|]. split; [exact letter_lookahead|].
  split; [apply (ltr_ascending _ 0); cbn; lia|]. witness.
Qed.
Print Assumptions C29_lookahead_refuted.

(** A cached rule tried at the end of the file: with file = item*, an edit of a file panics even if it changes nothing. *)
Definition at_end : language := letters [EPub 7 1 false; ERep 2; ECached 3; EPub 8 4 false; EToken 2].
Theorem C29_end_refuted : exists f inc ops, parse_file at_end 30 [97] = Ok (f, inc) /\ apply ops (as_text [97]) = Ok [97]
  /\ forall more, reparse_file at_end (30 + more) f inc ops = Panic.
Proof.
  do 2 eexists. exists [Copy (mkRange 0 1)]. split; [vm_compute; reflexivity|]. split; [vm_compute; reflexivity|].
  intros more. vm_compute. reflexivity.
Qed.
Print Assumptions C29_end_refuted.

(** The last token of a reused node grows into another one: words of two letters are keywords. The tree keeps a word "a"
    although the text now has the keyword "ab". *)
Fixpoint word_len (t : bytes) : nat := match t with b :: r => if b =? 32 then 0 else S (word_len r) | [] => 0 end.
Definition word_lexer : lexer := fun txt =>
  match txt with 32 :: _ => mkTok 1 1 | _ => mkTok (if word_len txt =? 2 then 3 else 2) (word_len txt) end.
Definition words : language :=
  mkLang word_lexer (mkGrammar (seq 0 16) [EPub 7 1 false; ERep 2; EAnd [3; 4] None; ENot 5; EOr [6; 9]; EEof; ECached 7; EPub 8 8 false; EToken 2; EAny])
    letter_ws (fun _ _ _ => 0).
Theorem C29_last_token_refuted : exists ops, ascending ops /\ differ words [97] ops.
Proof. exists [Copy (mkRange 0 1); Insert [98]]. split; [apply (ltr_ascending _ 0); cbn; lia|]. witness. Qed.
Print Assumptions C29_last_token_refuted.

(** An empty node of a cached rule where the edit splits the text lies in both copies; the length of the first copy is
    not counted when it is found there, so the second find is recorded at the start of the file. The edit changes nothing. *)
Definition maybe_b : language :=
  letters [EPub 7 1 false; ERep 2; EAnd [3; 4; 9] None; ENot 5; ECached 6; EEof; EPub 8 7 false; EOpt 8; EToken 3; EAny].
Theorem C29_identity_refuted : exists ops, apply ops (as_text [98; 99; 99]) = Ok [98; 99; 99] /\ ascending ops /\ differ maybe_b [98; 99; 99] ops.
Proof.
  exists [Copy (mkRange 0 2); Insert []; Copy (mkRange 2 3)]. split; [reflexivity|]. split; [apply (ltr_ascending _ 0); cbn; lia|]. witness.
Qed.
Print Assumptions C29_identity_refuted.

(** A cached rule that asks for its context: an item is b inside parentheses only; removing the parentheses keeps it. *)
Definition in_parens : language :=
  letters [EPub 7 1 false; ERep 2; EAnd [3; 4] None; ENot 5; EOr [6; 7; 13]; EEof; EAnd [8; 9; 10] None; ECached 11; EToken 5;
           EEnter 0 7; EToken 6; EPub 8 12 false; EAnd [14; 15] None; EAny; EIsIn 0; EToken 3].
Theorem C29_context_refuted : exists ops, ascending ops /\ differ in_parens [40; 98; 41] ops.
Proof. exists [Copy (mkRange 1 2)]. split; [apply (ltr_ascending _ 0); cbn; lia|]. witness. Qed.
Print Assumptions C29_context_refuted.
