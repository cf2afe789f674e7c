(** Properties C21, C22, C24, C30: positions, backtracking, commit and parameters, stated about the parser's own
    steps ([parse_expr]): which position and which state come out. *)
From Coq Require Import List Arith Bool Lia.
From Verif Require Import Base BaseFacts LexModel LexSpec GrammarModel ParserModel ParserProofs PegSpec PegProofs WindowProofs WindowParser
  MonoProofs ExampleLang.
Import ListNotations.

(** ** C21: positions *)

Theorem C21_position : forall E fuel e p s q s', e_cache E = None -> parse_expr E fuel e p s = Ok (Some q, s') -> p_cur p <= p_end p ->
  p_cur p <= p_cur q /\ p_cur q <= p_end q /\ p_end q = p_end p.
Proof. intros E fuel e p s q s' NC H L. apply parse_expr_good in H. destruct H as [_ H]. destruct (H NC L) as [H1 H2]. lia. Qed.
Print Assumptions C21_position.

(** Two files that agree up to some place: [U] is the common text and [A] the common tokens. An expression whose
    window ends within the common part does exactly the same in both, whatever follows: same result, same position,
    same events, same panics. [solid is_ws A] is the number of non-whitespace tokens of [A]. *)
Theorem C21_window : forall g is_ws U V V' A B B' fuel e p s, length U = lens A -> p_cur p <= p_end p -> p_end p <= solid is_ws A ->
  parse_expr (new_env None g is_ws (U ++ V) (A ++ B)) fuel e p s = parse_expr (new_env None g is_ws (U ++ V') (A ++ B')) fuel e p s.
Proof. intros. apply parse_same; auto. Qed.
Print Assumptions C21_window.

(** Inside <layer>, the body runs in the window that ends where the cover ends, and the layer as a whole ends there. *)
Theorem C21_layer : forall E fuel e l b p s q s', e_cache E = None -> p_cur p <= p_end p ->
  nth_error (g_rules (e_g E)) e = Some (ELayer l b) -> parse_expr E (S fuel) e p s = Ok (Some q, s') ->
  exists s1 s2 r, parse_expr E fuel l p (set_pred s true) = Ok (Some q, s1)
    /\ parse_expr E fuel b (mkPos (p_cur p) (p_cur q)) (set_pred s1 (s_pred s)) = Ok (r, s2)
    /\ p_cur p <= p_cur q <= p_end p
    /\ match r with Some x => p_cur p <= p_cur x <= p_cur q /\ p_end x = p_cur q | None => True end.
Proof.
  intros E fuel e l b p s q s' NC L R H. cbn [parse_expr] in H. unfold parse_step, parse_inner in H. rewrite (proj2 (index_ok _ _ _ _) R) in H.
  cbn [bind] in H. unfold parse_layer, parse_pred in H. apply bind_ok in H. destruct H as ([r0 s0] & H & H9).
  apply bind_ok in H. destruct H as ([r1 s1] & H & H2). apply bind_ok in H. destruct H as ([r3 s3] & H & H3). injection H3 as -> <-.
  destruct r1 as [c|].
  2:{ injection H2 as <- <-. cbn in H9. apply bind_ok in H9. destruct H9 as (s4 & _ & H9). discriminate. }
  apply bind_ok in H2. destruct H2 as ([r2 s2] & H2 & H4).
  assert (QC : q = c).
  { destruct (p_empty _) in H4; [injection H4 as <- <-; injection H9 as <- _; auto|]. apply bind_ok in H4. destruct H4 as ([z s5] & _ & H4).
    injection H4 as <- <-. injection H9 as <- _. auto. }
  subst c. exists s3, s2, r2. split; [exact H|]. split; [exact H2|].
  pose proof (C21_position _ _ _ _ _ _ _ NC H L) as (A & B & C). split; [lia|]. destruct r2 as [x|]; auto.
  pose proof (C21_position _ _ _ _ _ _ _ NC H2) as P. cbn in P. specialize (P A). lia.
Qed.
Print Assumptions C21_layer.

(** "1+2" and "1+(": in the window of one token the product rule answers alike. *)
Example C21_example :
  let E := new_env None calc_grammar calc_ws ([49; 43] ++ [50]) (calc_toks [49; 43] ++ calc_toks [50]) in
  let E' := new_env None calc_grammar calc_ws ([49; 43] ++ [40]) (calc_toks [49; 43] ++ calc_toks [40]) in
  length [49; 43] = lens (calc_toks [49; 43]) /\ solid calc_ws (calc_toks [49; 43]) = 2
  /\ (exists s, parse_expr E 10 2 (mkPos 0 2) new_st = Ok (Some (mkPos 2 2), s))
  /\ parse_expr E 10 2 (mkPos 0 3) new_st <> parse_expr E' 10 2 (mkPos 0 3) new_st.
Proof. split; [reflexivity|]. split; [reflexivity|]. split; [eexists; vm_compute; reflexivity|]. intros H. vm_compute in H. discriminate. Qed.

(** ** C22: backtracking *)

(** Failure: the event list is what it was. Contexts, arguments and predicate mode are restored in every case, and
    on success the earlier events are unchanged. This holds with or without a cache of earlier results. *)
Theorem C22_failure : forall E fuel e p s s', parse_expr E fuel e p s = Ok (None, s') -> s_events s' = s_events s.
Proof. intros E fuel e p s s' H. apply parse_expr_good in H. apply H. Qed.
Print Assumptions C22_failure.

Theorem C22_restores : forall E fuel e p s r s', parse_expr E fuel e p s = Ok (r, s') ->
  s_pred s' = s_pred s /\ s_ctxs s' = s_ctxs s /\ s_args s' = s_args s /\ exists more, s_events s' = s_events s ++ more.
Proof. intros E fuel e p s r s' H. apply parse_expr_good in H. destruct H as [(A & B & C & D & _) _]. auto. Qed.
Print Assumptions C22_restores.

Theorem C22_predicate : forall E fuel e p s r s', e_cache E = None -> s_pred s = true -> parse_expr E fuel e p s = Ok (r, s') ->
  s_events s' = s_events s.
Proof. intros E fuel e p s r s' NC PR H. apply parse_expr_good in H. destruct H as [(_ & _ & _ & _ & D) _]. auto. Qed.
Print Assumptions C22_predicate.

(** A failing alternative (a number that must be followed by a plus) and a succeeding predicate. *)
Example C22_example :
  let g := mkGrammar (seq 0 14) (g_rules calc_grammar ++ [EAnd [3; 7] None]) in
  let E := new_env None g calc_ws [49] (calc_toks [49]) in
  (exists s, parse_expr E 10 12 (mkPos 0 1) new_st = Ok (None, s) /\ s_events s = [])
  /\ (exists s, parse_expr E 10 3 (mkPos 0 1) (set_pred new_st true) = Ok (Some (mkPos 1 1), s) /\ s_events s = [])
  /\ (exists s, parse_expr E 10 3 (mkPos 0 1) new_st = Ok (Some (mkPos 1 1), s) /\ s_events s = [EvStart 8 None; EvToken 2 1; EvEnd]).
Proof. intros g E. split; [|split]; eexists; (split; [vm_compute; reflexivity|reflexivity]). Qed.

(** The registers behind <prev_is> and rule replacement are not restored: an alternative that fails still changes
    the tree. Rule 1 is [a | b | c] in the first grammar and [b | c] in the second; [a] fails on the text "1". *)
Definition prev_grammar (alts : list nat) : grammar :=
  mkGrammar (seq 0 14)
    [EPub 7 1 false; EOr alts; EAnd [4; 5] None; EAnd [6; 7] None; EPub 8 7 false; EToken 3; EPrevIs [8]; EToken 2; EPub 11 7 false].

Theorem C22_prev_refuted : forall fuel, 10 <= fuel ->
  let E alts := new_env None (prev_grammar alts) calc_ws [49] (calc_toks [49]) in
  (exists s', parse_expr (E [2; 3; 8]) fuel 2 (mkPos 0 1) new_st = Ok (None, s'))
  /\ parse_events (E [2; 3; 8]) fuel = Ok [EvStart 7 None; EvToken 2 1; EvEnd]
  /\ parse_events (E [3; 8]) fuel = Ok [EvStart 7 None; EvStart 11 None; EvToken 2 1; EvEnd; EvEnd].
Proof.
  intros fuel L E.
  assert (P : forall e p s r, parse_expr (E [2; 3; 8]) 10 e p s = Ok r -> parse_expr (E [2; 3; 8]) fuel e p s = Ok r).
  { intros e p s r H. destruct (parse_mono (E [2; 3; 8]) _ _ L e p s) as [Q|Q]; congruence. }
  assert (P2 : forall alts r, parse_events (E alts) 10 = Ok r -> parse_events (E alts) fuel = Ok r).
  { intros alts r H. destruct (events_mono (E alts) _ _ L) as [Q|Q]; congruence. }
  split; [|split].
  - eexists. apply P. vm_compute. reflexivity.
  - apply P2. vm_compute. reflexivity.
  - apply P2. vm_compute. reflexivity.
Qed.
Print Assumptions C22_prev_refuted.

(** Likewise the pending replacement: rule 0 is replaceable, its first alternative fails, and still the root gets
    the type that alternative asked for. *)
Definition repl_grammar (alts : list nat) : grammar :=
  mkGrammar (seq 0 14) [EPub 7 1 true; EOr alts; EAnd [3; 4] None; EPubReplace 8 5; EToken 3; EToken 2].

Theorem C22_replacement_refuted : forall fuel, 10 <= fuel ->
  let E alts := new_env None (repl_grammar alts) calc_ws [49] (calc_toks [49]) in
  (exists s', parse_expr (E [2; 5]) fuel 2 (mkPos 0 1) new_st = Ok (None, s'))
  /\ parse_events (E [2; 5]) fuel = Ok [EvStart 8 None; EvToken 2 1; EvEnd]
  /\ parse_events (E [5]) fuel = Ok [EvStart 7 None; EvToken 2 1; EvEnd].
Proof.
  intros fuel L E.
  assert (P : forall e p s r, parse_expr (E [2; 5]) 10 e p s = Ok r -> parse_expr (E [2; 5]) fuel e p s = Ok r).
  { intros e p s r H. destruct (parse_mono (E [2; 5]) _ _ L e p s) as [Q|Q]; congruence. }
  assert (P2 : forall alts r, parse_events (E alts) 10 = Ok r -> parse_events (E alts) fuel = Ok r).
  { intros alts r H. destruct (events_mono (E alts) _ _ L) as [Q|Q]; congruence. }
  split; [|split].
  - eexists. apply P. vm_compute. reflexivity.
  - apply P2. vm_compute. reflexivity.
  - apply P2. vm_compute. reflexivity.
Qed.
Print Assumptions C22_replacement_refuted.

(** With a cache, predicates do leave events behind: here the cover of a layer is a cached number. *)
Definition layer_grammar : grammar :=
  mkGrammar (seq 0 14) [EPub 7 1 false; ELayer 2 3; ECached 3; EToken 2].

Theorem C22_cached_predicate_refuted : forall fuel, 10 <= fuel ->
  let cache := ([((0, 3), (0, 1, 1))], [EvToken 2 1]) in
  let E c := new_env c layer_grammar calc_ws [49] (calc_toks [49]) in
  parse_events (E None) fuel = Ok [EvStart 7 None; EvToken 2 1; EvEnd]
  /\ parse_events (E (Some cache)) fuel = Ok [EvStart 7 None; EvToken 2 1; EvToken 2 1; EvEnd].
Proof.
  intros fuel L cache E.
  assert (P2 : forall c r, parse_events (E c) 10 = Ok r -> parse_events (E c) fuel = Ok r).
  { intros c r H. destruct (events_mono (E c) _ _ L) as [Q|Q]; congruence. }
  split; apply P2; vm_compute; reflexivity.
Qed.
Print Assumptions C22_cached_predicate_refuted.

(** ** C24: commit *)

(** The expressions [l] match one after the other, from position [p] and state [s] to [q] and [s']. *)
Inductive match_in_turn (E : env) (fuel : nat) : list nat -> pos -> st -> pos -> st -> Prop :=
| mt_nil : forall p s, match_in_turn E fuel [] p s p s
| mt_cons : forall a l p s p1 s1 q s', parse_expr E fuel a p s = Ok (Some p1, s1) -> match_in_turn E fuel l p1 s1 q s' ->
    match_in_turn E fuel (a :: l) p s q s'.

Lemma and_parts_run : forall E fuel l n p s m q s', and_parts (parse_expr E fuel) l n p s = Ok (m, q, s') ->
  exists k s1, m = n + k /\ k <= length l /\ match_in_turn E fuel (firstn k l) p s q s1
    /\ (k = length l /\ s' = s1 \/ exists a, nth_error l k = Some a /\ parse_expr E fuel a q s1 = Ok (None, s')).
Proof.
  intros E fuel. induction l as [|a l IH]; intros n p s m q s' H; cbn [and_parts] in H.
  - injection H as <- <- <-. exists 0, s. rewrite Nat.add_0_r. split; auto. split; auto. split; [constructor|auto].
  - apply bind_ok in H. destruct H as ([r s1] & H1 & H). destruct r as [p1|].
    + apply IH in H. destruct H as (k & s2 & -> & K & M & D). exists (S k), s2. split; [lia|]. split; [cbn; lia|].
      split; [cbn [firstn]; econstructor; eauto|]. destruct D as [[-> ->]|(b & B1 & B2)]; [left; auto|right; exists b; auto].
    + injection H as <- <- <-. exists 0, s. split; [lia|]. split; [lia|]. split; [constructor|]. right. exists a. auto.
Qed.

Lemma run_fun : forall E fuel l p s q s', match_in_turn E fuel l p s q s' -> forall q2 s2, match_in_turn E fuel l p s q2 s2 -> q = q2 /\ s' = s2.
Proof.
  induction 1 as [p s|a l p s p1 s1 q s' H1 H IH]; intros q2 s2 M; inversion M; subst; auto.
  match goal with H2 : parse_expr E fuel a p s = _ |- _ => rewrite H1 in H2; injection H2 as <- <- end. auto.
Qed.

Lemma run_split : forall E fuel l1 l2 p s q s', match_in_turn E fuel (l1 ++ l2) p s q s' <->
  exists p1 s1, match_in_turn E fuel l1 p s p1 s1 /\ match_in_turn E fuel l2 p1 s1 q s'.
Proof.
  intros E fuel. induction l1 as [|a l1 IH]; intros l2 p s q s'; cbn [app]; split.
  - intros H. exists p, s. split; [constructor|auto].
  - intros (p1 & s1 & H1 & H2). inversion H1; subst; auto.
  - intros H. inversion H; subst. match goal with H2 : match_in_turn _ _ (_ ++ _) _ _ _ _ |- _ => apply IH in H2; destruct H2 as (x & y & A & B) end.
    exists x, y. split; auto. econstructor; eauto.
  - intros (x & y & A & B). inversion A; subst. econstructor; eauto. apply IH. eauto.
Qed.

(** If the parts before <commit> have matched, the sequence succeeds: after as many further parts as match. If one is
    missing, the sequence ends where that part was tried and an empty ERROR node is appended. *)
Theorem C24_commit : forall E fuel e before after p s p1 s1 r s',
  nth_error (g_rules (e_g E)) e = Some (EAnd (before ++ after) (Some (length before))) ->
  match_in_turn E fuel before p s p1 s1 -> parse_expr E (S fuel) e p s = Ok (r, s') ->
  exists q more missing s2, r = Some q /\ after = more ++ missing /\ match_in_turn E fuel more p1 s1 q s2
    /\ match missing with
       | [] => s' = s2
       | part :: _ => (exists s3, parse_expr E fuel part q s2 = Ok (None, s3))
           /\ s_events s' = s_events s2 ++ (if s_pred s then [] else [EvStart ERROR None; EvEnd])
       end.
Proof.
  intros E fuel e before after p s p1 s1 r s' R M H. cbn [parse_expr] in H. unfold parse_step, parse_inner in H. rewrite (proj2 (index_ok _ _ _ _) R) in H.
  cbn [bind] in H. unfold parse_and in H. apply bind_ok in H. destruct H as ([r0 s0] & H & H9). apply bind_ok in H. destruct H as ([[n q] s4] & H & H2).
  apply and_parts_run in H. destruct H as (k & s5 & -> & K & RUN & D). cbn [plus] in H2.
  assert (KB : length before <= k).
  { destruct D as [[-> _]|(a & A1 & A2)]; [rewrite app_length; lia|]. destruct (Nat.le_gt_cases (length before) k) as [Q|Q]; auto. exfalso.
    assert (SP : before = firstn k before ++ a :: skipn (S k) before).
    { rewrite nth_error_app1 in A1 by lia. rewrite <- (firstn_skipn k before) at 1. f_equal.
      clear -A1. revert k A1. induction before as [|x b IH]; intros [|k] A1; try discriminate; cbn in *; [injection A1 as ->; reflexivity|auto]. }
    rewrite SP in M. apply run_split in M. destruct M as (x & y & M1 & M2). rewrite firstn_app in RUN. replace (k - length before) with 0 in RUN by lia.
    rewrite firstn_O, app_nil_r in RUN. destruct (run_fun _ _ _ _ _ _ _ M1 _ _ RUN) as [-> ->]. inversion M2; subst. congruence. }
  rewrite (proj2 (Nat.ltb_ge _ _) KB) in H2. rewrite app_length in *.
  rewrite firstn_app, firstn_all2 in RUN by lia. apply run_split in RUN. destruct RUN as (x & y & R1 & R2). destruct (run_fun _ _ _ _ _ _ _ M _ _ R1) as [<- <-].
  assert (PR : s_pred s5 = s_pred s).
  { clear -M R2. assert (G : forall l p s q s', match_in_turn E fuel l p s q s' -> s_pred s' = s_pred s).
    { induction 1 as [|a l p2 s2 p3 s3 q2 s4 H1 H IH]; auto. rewrite IH. apply C22_restores in H1. apply H1. }
    rewrite (G _ _ _ _ _ R2). apply (G _ _ _ _ _ M). }
  destruct (Nat.ltb_spec k (length before + length after)) as [LT|GE].
  - injection H2 as <- <-. injection H9 as <- <-. destruct D as [[-> _]|(a & A1 & A2)]; [lia|].
    exists q, (firstn (k - length before) after), (skipn (k - length before) after), s5. split; auto. split; [symmetry; apply firstn_skipn|]. split; auto.
    rewrite nth_error_app2 in A1 by lia. assert (SK : exists rest, skipn (k - length before) after = a :: rest).
    { clear -A1. revert A1. generalize (k - length before). induction after as [|z l IH]; intros [|m] A1; try discriminate; cbn in *; [injection A1 as ->; eauto|auto]. }
    destruct SK as (rest & ->). split; [eauto|]. pose proof (C22_failure _ _ _ _ _ _ A2) as EV. pose proof (C22_restores _ _ _ _ _ _ _ A2) as (PP & _).
    unfold finish, start_error, emit. rewrite PP, PR. destruct (s_pred s) eqn:SP; cbn [s_pred set_events s_events].
    + rewrite PP, PR. rewrite EV, app_nil_r. reflexivity.
    + rewrite PP, PR. cbn [s_events set_events]. rewrite EV, <- app_assoc. reflexivity.
  - injection H2 as <- <-. injection H9 as <- <-. destruct D as [[EK ->]|(a & A1 & A2)].
    2:{ assert (nth_error (before ++ after) k = None) by (apply nth_error_None; rewrite app_length; lia). congruence. }
    exists q, after, [], s5. split; auto. split; [rewrite app_nil_r; auto|]. split; auto. rewrite firstn_all2 in R2 by lia. exact R2.
Qed.
Print Assumptions C24_commit.

(** Before the commit point, or without one, a missing part makes the whole sequence fail. *)
Theorem C24_no_commit : forall E fuel e parts commit done part rest p s q s1 s2 r s',
  nth_error (g_rules (e_g E)) e = Some (EAnd parts commit) -> parts = done ++ part :: rest ->
  match commit with Some c => length done < c | None => True end ->
  match_in_turn E fuel done p s q s1 -> parse_expr E fuel part q s1 = Ok (None, s2) ->
  parse_expr E (S fuel) e p s = Ok (r, s') -> r = None.
Proof.
  intros E fuel e parts commit done part rest p s q s1 s2 r s' R -> C M F H. cbn [parse_expr] in H. unfold parse_step, parse_inner in H.
  rewrite (proj2 (index_ok _ _ _ _) R) in H. cbn [bind] in H. unfold parse_and in H. apply bind_ok in H. destruct H as ([r0 s0] & H & H9).
  assert (G : forall l p s q s1, match_in_turn E fuel l p s q s1 -> parse_expr E fuel part q s1 = Ok (None, s2) -> forall n,
    and_parts (parse_expr E fuel) (l ++ part :: rest) n p s = Ok (n + length l, q, s2)).
  { clear. induction 1 as [p s|a l p s p1 s1 q s3 H1 H IH]; intros F n; cbn [app and_parts].
    - rewrite F. cbn [bind]. cbn [length]. rewrite Nat.add_0_r. reflexivity.
    - rewrite H1. cbn [bind]. rewrite IH by auto. cbn [length]. rewrite Nat.add_succ_r. reflexivity. }
  rewrite (G _ _ _ _ _ M F) in H. cbn [bind plus] in H.
  rewrite (proj2 (Nat.ltb_lt _ _)) in H by (destruct commit; [exact C|rewrite app_length; cbn; lia]).
  injection H as <- <-. cbn in H9. apply bind_ok in H9. destruct H9 as (s4 & _ & H9). injection H9 as <- _. reflexivity.
Qed.
Print Assumptions C24_no_commit.

(** "(1 2": the parenthesis is committed, its end is missing. *)
Example C24_example :
  let E := calc_env calc_broken in
  (exists s1, match_in_turn E 10 [10] (mkPos 0 3) new_st (mkPos 1 3) s1)
  /\ (exists s', parse_expr E 11 6 (mkPos 0 3) new_st = Ok (Some (mkPos 2 3), s')
       /\ s_events s' = [EvToken 5 1; EvStart 8 None; EvToken 2 1; EvEnd; EvStart ERROR None; EvEnd])
  /\ (exists s', parse_expr E 11 6 (mkPos 1 3) new_st = Ok (None, s')).
Proof.
  intros E. split; [|split].
  - eexists. econstructor; [vm_compute; reflexivity|constructor].
  - eexists. split; vm_compute; reflexivity.
  - eexists. vm_compute. reflexivity.
Qed.

(** ** C30: parameters *)

(** A call runs the callee with the table given by [binds] and puts the caller's whole table back. *)
Theorem C30_call : forall E fuel e body args p s r s',
  nth_error (g_rules (e_g E)) e = Some (ECall body args) -> parse_expr E (S fuel) e p s = Ok (r, s') ->
  s_args s' = s_args s
  /\ exists table s1, binds E args (s_args s) table /\ parse_expr E fuel body p (set_args s table) = Ok (r, s1).
Proof.
  intros E fuel e body args p s r s' R H. split; [apply C22_restores in H; apply H|]. cbn [parse_expr] in H. unfold parse_step, parse_inner in H.
  rewrite (proj2 (index_ok _ _ _ _) R) in H. cbn [bind] in H. unfold parse_call in H. apply bind_ok in H. destruct H as ([r0 s0] & H & H9).
  apply bind_ok in H. destruct H as (a & HA & H). apply bind_ok in H. destruct H as ([r1 s1] & H1 & H2). injection H2 as <- <-.
  exists a, s1. split; [apply bind_args_sound; auto|]. destruct r1; [injection H9 as <- _; auto|].
  apply bind_ok in H9. destruct H9 as (s3 & _ & H9). injection H9 as <- _. auto.
Qed.
Print Assumptions C30_call.

(** What the table holds during the call, for distinct parameters: each parameter has its argument; an argument that
    is a parameter of the caller stands for what that parameter stands for; everything else is as it was. *)
Theorem C30_bound : forall E args old new, binds E args old new -> NoDup (map fst args) ->
  length new = length old
  /\ (forall i, ~ In i (map fst args) -> nth_error new i = nth_error old i)
  /\ (forall i e x, In (i, e) args -> nth_error (g_rules (e_g E)) e = Some x -> (forall j, x <> EVar j) -> nth_error new i = Some (Some e))
  /\ (forall i e j, In (i, e) args -> nth_error (g_rules (e_g E)) e = Some (EVar j) -> ~ In j (map fst args) ->
        nth_error new i = nth_error old j /\ exists v, nth_error old j = Some (Some v)).
Proof.
  intros E args old new H. induction H as [a|i e rest a b x RX NV LI H IH|i e rest a b j v RX AJ LI H IH]; intros ND.
  - split; auto. split; auto. split; [intros ? ? ? []|intros ? ? ? []].
  - inversion ND as [|? ? NI ND']; subst. destruct (IH ND') as (L & O & P & Q). rewrite set_nth_length in L. split; auto. split; [|split].
    + intros k NK. cbn in NK. rewrite O by tauto. apply nth_error_set_nth_neq. intros ->. tauto.
    + intros k e' x' [EQ|IN] R' NV'; [|eauto]. injection EQ as <- <-. rewrite O by auto. apply nth_error_set_nth_eq. auto.
    + intros k e' j' [EQ|IN] R' NJ; [injection EQ as <- <-; unfold rule in RX; rewrite R' in RX; injection RX as <-; exfalso; eapply NV; reflexivity|].
      cbn in NJ. destruct (Q k e' j' IN R' ltac:(tauto)) as (Q1 & Q2). rewrite nth_error_set_nth_neq in Q1, Q2 by (intros ->; tauto). auto.
  - inversion ND as [|? ? NI ND']; subst. destruct (IH ND') as (L & O & P & Q). rewrite set_nth_length in L. split; auto. split; [|split].
    + intros k NK. cbn in NK. rewrite O by tauto. apply nth_error_set_nth_neq. intros ->. tauto.
    + intros k e' x' [EQ|IN] R' NV'; [|eauto]. injection EQ as <- <-. unfold rule in RX. rewrite R' in RX. injection RX as ->. exfalso. eapply NV'. reflexivity.
    + intros k e' j' [EQ|IN] R' NJ.
      * injection EQ as <- <-. unfold rule in RX. rewrite R' in RX. injection RX as <-. rewrite O by auto. rewrite nth_error_set_nth_eq by auto. rewrite AJ. eauto.
      * cbn in NJ. destruct (Q k e' j' IN R' ltac:(tauto)) as (Q1 & Q2). rewrite nth_error_set_nth_neq in Q1, Q2 by (intros ->; tauto). auto.
Qed.
Print Assumptions C30_bound.

(** A parameter is run in whatever table is current. *)
Theorem C30_variable : forall E fuel e i p s r s',
  nth_error (g_rules (e_g E)) e = Some (EVar i) -> parse_expr E (S fuel) e p s = Ok (r, s') ->
  exists arg s1, nth_error (s_args s) i = Some (Some arg) /\ parse_expr E fuel arg p s = Ok (r, s1).
Proof.
  intros E fuel e i p s r s' R H. cbn [parse_expr] in H. unfold parse_step, parse_inner in H. rewrite (proj2 (index_ok _ _ _ _) R) in H.
  cbn [bind] in H. unfold parse_var in H. apply bind_ok in H. destruct H as ([r0 s0] & H & H9). apply bind_ok in H. destruct H as (o & HO & H).
  apply bind_ok in H. destruct H as (arg & HU & H). destruct o as [a|]; [|discriminate]. injection HU as ->. exists arg, s0. split; [apply index_ok; auto|].
  destruct r0; [injection H9 as <- _; auto|]. apply bind_ok in H9. destruct H9 as (s3 & _ & H9). injection H9 as <- _. auto.
Qed.
Print Assumptions C30_variable.

(** Rule 2 has the parameters 0 and 1 and is called with a number for the first; rule 7 passes its own parameter on. *)
Example C30_example :
  let g := mkGrammar (seq 0 14) [EPub 7 1 false; ECall 2 [(0, 3); (1, 4)]; EAnd [5; 6; 7] None; EToken 2; EToken 3; EVar 0; EVar 1; ECall 8 [(2, 5)]; EVar 2] in
  let E := new_env None g calc_ws [49; 43; 50] (calc_toks [49; 43; 50]) in
  binds E [(0, 3); (1, 4)] (repeat None 16) (Some 3 :: Some 4 :: repeat None 14)
  /\ binds E [(2, 5)] (Some 3 :: Some 4 :: repeat None 14) (Some 3 :: Some 4 :: Some 3 :: repeat None 13)
  /\ parse_events E 10 = Ok [EvStart 7 None; EvToken 2 1; EvToken 3 1; EvToken 2 1; EvEnd].
Proof.
  intros g E. split; [|split].
  - apply bind_args_sound. reflexivity.
  - apply bind_args_sound. reflexivity.
  - vm_compute. reflexivity.
Qed.

(** Arguments are bound one after the other, so a recursive call cannot exchange its parameters: after
    [<r b a>] both hold what [b] was. *)
Theorem C30_exchange_refuted : forall E x y u v new, nth_error (g_rules (e_g E)) u = Some (EVar 1) -> nth_error (g_rules (e_g E)) v = Some (EVar 0) ->
  binds E [(0, u); (1, v)] [Some x; Some y] new -> new = [Some y; Some y].
Proof.
  intros E x y u v new U V H. inversion H; subst; unfold rule in *.
  - exfalso. match goal with H1 : nth_error _ u = Some ?z, H2 : forall j, ?z <> EVar j |- _ => rewrite U in H1; injection H1 as <-; eapply H2; reflexivity end.
  - match goal with H1 : nth_error _ u = Some (EVar _) |- _ => rewrite U in H1; injection H1 as <- end.
    match goal with H1 : binds _ [(1, v)] _ _ |- _ => inversion H1; subst; unfold rule in * end.
    + exfalso. match goal with H1 : nth_error _ v = Some ?z, H2 : forall j, ?z <> EVar j |- _ => rewrite V in H1; injection H1 as <-; eapply H2; reflexivity end.
    + match goal with H1 : nth_error _ v = Some (EVar _) |- _ => rewrite V in H1; injection H1 as <- end.
      match goal with H1 : binds _ [] _ _ |- _ => inversion H1; subst end. cbn in *. congruence.
Qed.
Print Assumptions C30_exchange_refuted.

Example C30_exchange_example :
  let g := mkGrammar [] [EVar 0; EVar 1] in
  binds (new_env None g calc_ws [] []) [(0, 1); (1, 0)] [Some 5; Some 6] [Some 6; Some 6].
Proof. apply bind_args_sound. reflexivity. Qed.

(** [rule r(p) { '+' <r {p '*'}> | p }], started as [<r digit>]. The argument mentions the parameter, and it is run in
    the callee's table, where the parameter is that argument: on the text "+" the parser never returns. *)
Definition loop_grammar : grammar :=
  mkGrammar (seq 0 14)
    [EPub 7 1 false; ECall 2 [(0, 5)]; EOr [3; 4]; EAnd [8; 6] None; EVar 0; EToken 2; ECall 2 [(0, 7)]; EAnd [4; 9] None; EToken 3; EToken 4].

Theorem C30_argument_scope_diverges : forall fuel,
  parse_events (new_env None loop_grammar calc_ws [43] (calc_toks [43])) fuel = OutOfFuel.
Proof.
  set (E := new_env None loop_grammar calc_ws [43] (calc_toks [43])).
  assert (V : forall fuel p s, nth_error (s_args s) 0 = Some (Some 7) -> parse_expr E fuel 4 p s = OutOfFuel /\ parse_expr E fuel 7 p s = OutOfFuel).
  { induction fuel as [|f IH]; intros p s A; [split; reflexivity|]. cbn [parse_expr]. unfold parse_step, parse_inner.
    cbn [E new_env e_g loop_grammar g_rules index nth_error unwrap bind]. split.
    - unfold parse_var, index. rewrite A. cbn [unwrap bind]. rewrite (proj2 (IH p s A)). reflexivity.
    - unfold parse_and. cbn [and_parts]. rewrite (proj1 (IH p s A)). reflexivity. }
  assert (B : forall fuel s, nth_error (s_args s) 0 = Some (Some 7) -> s_pred s = false -> parse_expr E fuel 2 (mkPos 1 1) s = OutOfFuel).
  { intros [|f] s A PF; [reflexivity|]. cbn [parse_expr]. unfold parse_step, parse_inner.
    cbn [E new_env e_g loop_grammar g_rules index nth_error unwrap bind parse_or]. destruct f as [|f]; [reflexivity|].
    cbn [parse_expr]. unfold parse_step at 1, parse_inner at 1. cbn [E new_env e_g loop_grammar g_rules index nth_error unwrap bind]. unfold parse_and. cbn [and_parts].
    destruct f as [|f]; [reflexivity|].
    assert (T : parse_expr E (S f) 8 (mkPos 1 1) s = Ok (None, s)).
    { destruct s. cbn [parse_expr]. unfold parse_step, parse_inner, mark, rollback. cbn [E new_env e_g loop_grammar g_rules index nth_error unwrap bind].
      unfold parse_token, bump. cbn. rewrite Nat.leb_refl. cbn. rewrite firstn_all. reflexivity. }
    assert (RB : rollback s (mark s) = Ok s).
    { unfold rollback, mark. rewrite Nat.leb_refl. cbn [guard]. rewrite firstn_all. destruct s; reflexivity. }
    rewrite T. cbn [bind]. change (0 <? length [8; 6]) with true. cbv iota. cbn [bind]. rewrite RB. cbn [bind].
    change (parse_step E (parse_expr E (S f)) (S f) 4 (mkPos 1 1) s) with (parse_expr E (S (S f)) 4 (mkPos 1 1) s).
    rewrite (proj1 (V (S (S f)) (mkPos 1 1) s A)). reflexivity. }
  intros fuel. destruct (Nat.le_gt_cases fuel 10) as [L|G].
  - do 11 (destruct fuel as [|fuel]; [vm_compute; reflexivity|]). lia.
  - replace fuel with (6 + (fuel - 6)) by lia. set (f := fuel - 6). unfold parse_events.
    assert (H6 : forall s, s_pred s = false -> nth_error (s_args s) 0 <> None -> parse_expr E (2 + f) 6 (mkPos 1 1) s = OutOfFuel).
    { intros s PF NA. cbn [plus parse_expr]. unfold parse_step at 1, parse_inner at 1. cbn [E new_env e_g loop_grammar g_rules index nth_error unwrap bind].
      unfold parse_call. cbn [bind_args E new_env e_g loop_grammar g_rules index nth_error unwrap bind].
      destruct (nth_error (s_args s) 0) as [x|] eqn:A0; [|congruence]. unfold index. rewrite A0. cbn [unwrap bind]. fold E.
      change (parse_step E (parse_expr E f) f 2 (mkPos 1 1) (set_args s (set_nth 0 (Some 7) (s_args s)))) with (parse_expr E (S f) 2 (mkPos 1 1) (set_args s (set_nth 0 (Some 7) (s_args s)))).
      rewrite B; auto. cbn [set_args s_args]. apply nth_error_set_nth_eq. apply nth_error_Some. congruence. }
    assert (H8 : forall s, s_pred s = false -> parse_expr E (2 + f) 8 (mkPos 0 1) s = Ok (Some (mkPos 1 1), emit s (EvToken 3 1))).
    { intros s PF. reflexivity. }
    assert (H3 : forall s, s_pred s = false -> nth_error (s_args s) 0 <> None -> parse_expr E (3 + f) 3 (mkPos 0 1) s = OutOfFuel).
    { intros s PF NA. change (3 + f) with (S (2 + f)). cbn [parse_expr]. unfold parse_step, parse_inner. cbn [E new_env e_g loop_grammar g_rules index nth_error unwrap bind].
      unfold parse_and. cbn [and_parts]. fold E. rewrite H8 by auto. cbn [bind]. unfold emit. rewrite PF. rewrite H6; auto. }
    assert (H2 : forall s, s_pred s = false -> nth_error (s_args s) 0 <> None -> parse_expr E (4 + f) 2 (mkPos 0 1) s = OutOfFuel).
    { intros s PF NA. change (4 + f) with (S (3 + f)). cbn [parse_expr]. unfold parse_step, parse_inner. cbn [E new_env e_g loop_grammar g_rules index nth_error unwrap bind].
      cbn [parse_or]. fold E. rewrite H3; auto. }
    assert (H1 : forall s, s_pred s = false -> nth_error (s_args s) 0 <> None -> parse_expr E (5 + f) 1 (mkPos 0 1) s = OutOfFuel).
    { intros s PF NA. change (5 + f) with (S (4 + f)). cbn [parse_expr]. unfold parse_step, parse_inner. cbn [E new_env e_g loop_grammar g_rules index nth_error unwrap bind].
      unfold parse_call. cbn [bind_args E new_env e_g loop_grammar g_rules index nth_error unwrap bind].
      destruct (nth_error (s_args s) 0) as [x|] eqn:A0; [|congruence]. unfold index. rewrite A0. cbn [unwrap bind]. fold E.
      rewrite H2; auto. cbn [set_args s_args]. rewrite nth_error_set_nth_eq; [discriminate|]. apply nth_error_Some. congruence. }
    change (6 + f) with (S (5 + f)). cbn [parse_expr]. unfold parse_step, parse_inner. cbn [E new_env e_g loop_grammar g_rules index nth_error unwrap bind].
    unfold parse_pub. change (start _ new_st 7) with (Ok (emit new_st (EvStart 7 None))). cbn [bind]. fold E. change (new_pos E) with (mkPos 0 1).
    rewrite H1; [reflexivity|reflexivity|discriminate].
Qed.
Print Assumptions C30_argument_scope_diverges.
