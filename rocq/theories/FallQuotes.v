(** Texts of fall without a double quote: no raw string can begin in them, so that relexing them is right after every edit. *)
From Coq Require Import List Arith NArith Bool Lia.
From Verif Require Import Base BaseFacts TextModel TextSpec TextProofs EditModel LexModel LexSpec LexProofs ScanModel ScanSpec ScanProofs
  RegexModel RegexSpec RegexProofs RegexLang RelexChars RelexLang LexData PropsRegex PropsRelex ParserModel ReparseModel ReparseSpec ReparseProofs ReparseTotal PropsReparse FallTokens PropsCached.
Import ListNotations.
Open Scope list_scope.

(** The rules with a lone quote in place of raw strings. *)
Definition lone_quote : lex_rule := mkRule 129 (Chr (Lit 34)) None.
Definition fall_plain : list lex_rule := map (fun r => match r_f r with None => r | Some _ => lone_quote end) fall_rules.

Lemma plain_proper : proper_rules fall_plain.
Proof.
  split; [vm_compute; reflexivity|]. intros r I. assert (C : forallb (fun r => match r_f r with None => negb (nullable (r_re r)) | Some _ => false end) fall_plain = true) by (vm_compute; reflexivity).
  rewrite forallb_forall in C. specialize (C r I). destruct (r_f r); [discriminate C|]. apply negb_true_iff. exact C.
Qed.

Definition no_quote (s : bytes) : Prop := ~ In 34 s.

Lemma try_plain : forall U s r, In r fall_rules -> no_quote s -> try_rule U s (match r_f r with None => r | Some _ => lone_quote end) = try_rule U s r.
Proof.
  intros U s r I NQ. destruct (r_f r) as [f|] eqn:F; [|reflexivity].
  assert (RE : r_re r = raw_re). { unfold fall_rules in I. repeat (destruct I as [<-|I]; [try discriminate F; try reflexivity|]). destruct I. }
  unfold try_rule. rewrite RE. destruct (find U raw_re s) as [m|] eqn:G.
  - exfalso. destruct (found_raw U raw_re s (or_introl eq_refl)) as (n & rest & ->); [congruence|]. apply NQ. apply in_or_app. left. right. apply in_or_app. right. left. reflexivity.
  - destruct (find U (r_re lone_quote) s) as [m|] eqn:H; [|reflexivity]. exfalso. destruct (find_some _ _ _ _ H) as (cs & rest & EC & M & _).
    cbn [r_re lone_quote] in M. inversion M as [|k c IS| | | | |]; subst. cbn [in_set] in IS. apply NQ. rewrite <- (chars_all s), EC. cbn [concat app].
    destruct c as [|b [|b' c]]; cbn [list_eqb] in IS; try discriminate IS; [|destruct (b =? 34); discriminate IS]. apply andb_true_iff in IS. destruct IS as [IS _]. apply Nat.eqb_eq in IS. subst. left. reflexivity.
Qed.

Lemma numbered_map : forall (f : lex_rule -> lex_rule), (forall r, In r fall_rules -> r_ty (f r) = r_ty r) -> forall rules tys, incl rules fall_rules ->
  fst (numbered tys (map f rules)) = fst (numbered tys rules) /\ snd (numbered tys (map f rules)) = map (fun p => (fst p, f (snd p))) (snd (numbered tys rules)).
Proof.
  intros f H. induction rules as [|r rules IH]; intros tys I; [split; reflexivity|]. cbn [map numbered]. rewrite (H r (I r (or_introl eq_refl))).
  destruct (IH (tys ++ [r_ty r]) (fun x J => I x (or_intror J))) as [A B]. destruct (numbered (tys ++ [r_ty r]) (map f rules)) as [x l]. destruct (numbered (tys ++ [r_ty r]) rules) as [y l'].
  cbn [fst snd] in *. subst. split; reflexivity.
Qed.

Lemma plain_token : forall U err s, no_quote s -> regex_lexer U longest err fall_plain s = regex_lexer U longest err fall_rules s.
Proof.
  intros U err s NQ. unfold regex_lexer, next_token, new_lexer, fall_plain.
  assert (TY : forall r, In r fall_rules -> r_ty (match r_f r with None => r | Some _ => lone_quote end) = r_ty r).
  { intros r I. unfold fall_rules in I. repeat (destruct I as [<-|I]; [reflexivity|]). destruct I. }
  destruct (numbered_map _ TY fall_rules [ERROR] (incl_refl _)) as [A B]. destruct (numbered [ERROR] (map _ fall_rules)) as [x l]. assert (RULES : forall p, In p (snd (numbered [ERROR] fall_rules)) -> In (snd p) fall_rules).
  { assert (G : forall rules tys p, In p (snd (numbered tys rules)) -> In (snd p) rules).
    { clear. induction rules as [|r rules IH]; intros tys p I; [destruct I|]. cbn [numbered] in I. specialize (IH (tys ++ [r_ty r]) p). destruct (numbered (tys ++ [r_ty r]) rules) as [y l']. destruct I as [<-|I]; [left; reflexivity|right; auto]. }
    intros p. apply G. }
  destruct (numbered [ERROR] fall_rules) as [y l']. cbn [fst snd] in *. subst. unfold m_next.
  replace (candidates U s (map (fun p => (fst p, match r_f (snd p) with None => snd p | Some _ => lone_quote end)) l')) with (candidates U s l'); [reflexivity|].
  induction l' as [|[k r] l' IH]; [reflexivity|]. cbn [map candidates fst snd]. rewrite (try_plain U s r (RULES (k, r) (or_introl eq_refl)) NQ), <- IH; [reflexivity|]. intros p I. apply RULES. right. exact I.
Qed.

(** ** Lexers that agree on the texts without a property's opposite *)

Section Agree.
  Variables lx lx' : lexer.
  Variable good : bytes -> Prop.
  Hypothesis TAIL : forall s n, good s -> good (skipn n s).
  Hypothesis SAME : forall s, good s -> lx s = lx' s.

  Lemma lex_loop_agree : forall fuel s, good s -> lex_loop fuel lx s = lex_loop fuel lx' s.
  Proof.
    induction fuel as [|fuel IH]; intros s G; destruct s as [|b s]; cbn [lex_loop]; try reflexivity. unfold step. rewrite (SAME _ G).
    destruct (_ <=? _); [|reflexivity]. cbn [guard bind]. rewrite IH by (apply TAIL; exact G). reflexivity.
  Qed.

  Lemma lex_agree : forall s, good s -> lex lx s = lex lx' s.
  Proof. intros s G. apply lex_loop_agree. exact G. Qed.

  Lemma up_to_agree : forall fuel point s new nl, good s -> lex_up_to fuel lx point s new nl = lex_up_to fuel lx' point s new nl /\ forall x y z, lex_up_to fuel lx' point s new nl = Ok (x, y, z) -> good x.
  Proof.
    induction fuel as [|fuel IH]; intros point s new nl G; cbn [lex_up_to]; destruct (nl <? point); try (split; [reflexivity|intros x y z H; try discriminate H; injection H as <- _ _; exact G]).
    unfold step. rewrite (SAME _ G). destruct (_ <=? _); [|split; [reflexivity|discriminate]]. cbn [guard bind]. apply IH. apply TAIL. exact G.
  Qed.

  Lemma copy_agree : forall fuel r s st, good s -> copy_loop fuel lx r s st = copy_loop fuel lx' r s st.
  Proof.
    induction fuel as [|fuel IH]; intros r s st G; cbn [copy_loop]; [reflexivity|].
    destruct (usub (rx_new_len st) (rx_point st)) as [nc| |]; cbn [bind]; try reflexivity. destruct (usub (rx_old_len st) (rstart r)) as [oc| |]; cbn [bind]; try reflexivity.
    destruct (range_len r) as [len| |]; cbn [bind]; try reflexivity. destruct (_ || _); [reflexivity|]. destruct (nc ?= oc).
    - destruct (reuse _ _ _ _ _ _) as [[[[a b] c] d] e]. apply IH. exact G.
    - unfold step. rewrite (SAME _ G). destruct (_ <=? _); [|reflexivity]. cbn [guard bind]. apply IH. apply TAIL. exact G.
    - destruct (rx_old st); [reflexivity|]. apply IH. exact G.
  Qed.

  Lemma relex_op_agree : forall fuel new st op, good new -> relex_op fuel lx new st op = relex_op fuel lx' new st op.
  Proof.
    intros fuel new st [r|t] G; [|reflexivity]. cbn [relex_op]. unfold LexModel.suffix. destruct (rx_new_len st <=? List.length new); [|reflexivity]. cbn [guard bind].
    destruct (up_to_agree fuel (rx_point st) (skipn (rx_new_len st) new) (rx_new st) (rx_new_len st) (TAIL new (rx_new_len st) G)) as [-> GX].
    destruct (lex_up_to _ _ _ _ _ _) as [[[x y] z]| |]; cbn [bind]; try reflexivity. destruct (skip_old _ _ _) as [[o ol]| |]; cbn [bind]; try reflexivity.
    rewrite (copy_agree _ _ _ _ (GX x y z eq_refl)). reflexivity.
  Qed.

  Lemma relex_agree : forall toks ops new, good new -> relex lx toks ops new = relex lx' toks ops new.
  Proof.
    intros toks ops new G. unfold relex. rewrite (lex_agree new G). destruct (existsb _ toks); [reflexivity|].
    assert (F : forall ops st, fold_res (relex_op (length new + length toks + 2) lx new) st ops = fold_res (relex_op (length new + length toks + 2) lx' new) st ops).
    { induction ops0 as [|op ops0 IH]; intros st; cbn [fold_res]; [reflexivity|]. rewrite relex_op_agree by exact G. destruct (relex_op _ lx' _ _ _); cbn [bind]; auto. }
    rewrite F. destruct (fold_res _ _ _) as [st| |]; cbn [bind]; try reflexivity. unfold LexModel.suffix. destruct (rx_new_len st <=? List.length new); [|reflexivity]. cbn [guard bind].
    rewrite (lex_loop_agree _ _ (TAIL new (rx_new_len st) G)). reflexivity.
  Qed.
End Agree.

(** ** Edits without quotes *)

Definition inserts_no_quote (ops : list edit_op) : Prop := Forall (fun o => match o with Copy _ => True | Insert t => no_quote t end) ops.

Lemma sub_incl : forall a b (s : bytes), incl (sub a b s) s.
Proof. intros a b s x I. unfold sub in I. rewrite <- (firstn_skipn a s). apply in_or_app. right. rewrite <- (firstn_skipn (b - a) (skipn a s)). apply in_or_app. left. exact I. Qed.

Lemma result_no_quote : forall old ops, no_quote old -> inserts_no_quote ops -> no_quote (result_of old ops).
Proof.
  intros old ops N I J. unfold result_of in J. apply in_flat_map in J. destruct J as ([r|t] & J & X); cbn [op_bytes] in X.
  - exact (N (sub_incl _ _ _ _ X)).
  - unfold inserts_no_quote in I. rewrite Forall_forall in I. exact (I _ J X).
Qed.

Definition quoteless (old : bytes) (ops : list edit_op) : Prop := utf8 old /\ inserts_utf8 ops /\ no_quote old /\ inserts_no_quote ops.

Lemma no_quote_tail : forall s n, no_quote s -> no_quote (skipn n s).
Proof. intros s n N I. apply N. rewrite <- (firstn_skipn n s). apply in_or_app. right. exact I. Qed.

Section Fall.
  Variables (U : tables) (err : bytes -> nat).
  Hypothesis T : tables_ok U.
  Hypothesis E : err_ok err.
  Notation lx := (regex_lexer U longest err fall_rules).
  Notation plain := (regex_lexer U longest err fall_plain).

  Lemma quoteless_relexes : forall old toks ops new, quoteless old ops -> lex lx old = Ok toks -> apply ops (as_text old) = Ok new ->
    utf8 new /\ no_quote new /\ exists region ts, relex lx toks ops new = Ok (ts, region) /\ lex lx new = Ok ts.
  Proof.
    intros old toks ops new (UO & IU & NQ & IN) LX AP. destruct (apply_result _ _ _ AP) as [_ EN].
    assert (NN : no_quote new) by (rewrite EN; apply result_no_quote; assumption).
    assert (SAME : forall s, no_quote s -> lx s = plain s) by (intros s H; symmetry; apply plain_token; exact H).
    rewrite (lex_agree lx plain no_quote no_quote_tail SAME old NQ) in LX.
    rewrite (lex_agree lx plain no_quote no_quote_tail SAME new NN), (relex_agree lx plain no_quote no_quote_tail SAME toks ops new NN).
    assert (LO : local_on plain (fun _ => True)) by (apply plain_local; [exact T|exact E|exact plain_proper|vm_compute; reflexivity|vm_compute; reflexivity]).
    destruct (relex_chars plain (fun _ => True) old toks ops new (regex_progress U longest err fall_plain longest_picks E plain_proper) (regex_whole U longest err fall_plain longest_picks E plain_proper)
      LO (fun s _ _ => I) I UO IU LX AP) as (UN & R). auto.
  Qed.
End Fall.
