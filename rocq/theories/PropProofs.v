(** Proofs about the random edits and about the texts of the property tests. *)
From Coq Require Import List Arith NArith Bool Lia Permutation.
From Verif Require Import Base BaseFacts TextModel TextSpec TextProofs EditModel LexModel LexSpec LexProofs ScanProofs RegexProofs RegexLang TreeModel HarnessModel HarnessProofs FallCheck PropsReparse PropModel PropSpec.
Import ListNotations.
Open Scope list_scope.

(** ** Drawing *)

Fixpoint ascends (lo : N) (l : list N) : Prop := match l with [] => True | x :: r => (lo <= x)%N /\ ascends x r end.

Lemma ascends_weaken : forall l lo hi, (lo <= hi)%N -> ascends hi l -> ascends lo l.
Proof. intros [|x l] lo hi L H; [exact I|]. destruct H. split; [lia|assumption]. Qed.

Lemma insert_ascends : forall x l lo, (lo <= x)%N -> ascends lo l -> ascends lo (insert_unit x l).
Proof.
  intros x l. induction l as [|y l IH]; intros lo L H; cbn [insert_unit ascends] in *; [split; [exact L|exact I]|].
  destruct (x <=? y)%N eqn:E; cbn [ascends]; [apply N.leb_le in E; tauto|]. apply N.leb_gt in E. split; [tauto|]. apply IH; [lia|tauto].
Qed.

Lemma sort_ascends : forall l, ascends 0 (sort_units l).
Proof. induction l as [|x l IH]; [exact I|]. cbn [sort_units]. apply insert_ascends; [lia|exact IH]. Qed.

Lemma insert_perm : forall x l, Permutation (x :: l) (insert_unit x l).
Proof. intros x l. induction l as [|y l IH]; cbn [insert_unit]; [reflexivity|]. destruct (x <=? y)%N; [reflexivity|]. rewrite perm_swap. apply perm_skip. exact IH. Qed.

Lemma sort_perm : forall l, Permutation l (sort_units l).
Proof. induction l as [|x l IH]; [reflexivity|]. cbn [sort_units]. rewrite <- insert_perm. apply perm_skip. exact IH. Qed.

Lemma sort_sorted : forall l lo, ascends lo l -> sort_units l = l.
Proof.
  induction l as [|x l IH]; intros lo H; [reflexivity|]. destruct H as [_ H]. cbn [sort_units]. rewrite (IH _ H). destruct l as [|y l]; [reflexivity|].
  destruct H as [H _]. cbn [insert_unit]. replace (x <=? y)%N with true by (symmetry; apply N.leb_le; exact H). reflexivity.
Qed.

Lemma prop_range_le : forall s e, (s <= e)%N -> prop_range s e = (s, e).
Proof. intros s e L. unfold prop_range. destruct (s <? e)%N eqn:E; [reflexivity|]. apply N.ltb_ge in E. assert (s = e) by lia. subst. reflexivity. Qed.

Lemma prop_range_ordered : forall a b, unit_ok a -> unit_ok b -> (fst (prop_range a b) <= snd (prop_range a b))%N /\ unit_ok (snd (prop_range a b)).
Proof. intros a b A B. unfold prop_range, unit_ok in *. destruct (a <? b)%N eqn:E; cbn [fst snd]; [apply N.ltb_lt in E|apply N.ltb_ge in E]; lia. Qed.

Notation copies l := (map (fun se : N * N => Some (true, prop_range (fst se) (snd se))) (tuples l)).

Lemma copies_drawn : forall n l lo, length l <= n -> ascends lo l -> Forall unit_ok l -> well_drawn lo (somes (copies l)).
Proof.
  induction n as [|n IH]; intros [|a [|b l]] lo LE A F; cbn [length] in LE; try lia; try exact I.
  cbn [tuples map fst snd somes]. destruct A as (A1 & A2 & A3). rewrite (prop_range_le a b A2). cbn [well_drawn]. pose proof (Forall_inv (Forall_inv_tail F)) as UB.
  split; [exact A1|]. split; [exact A2|]. split; [exact UB|]. apply IH; [lia|exact A3|exact (Forall_inv_tail (Forall_inv_tail F))].
Qed.

Notation inserts_of l := (map (option_map (fun p => (false, arb_range p))) l).

Lemma insert_drawn : forall o lo rest, (forall p, o = Some p -> pair_ok p) -> well_drawn lo (somes rest) -> well_drawn lo (somes (option_map (fun p => (false, arb_range p)) o :: rest)).
Proof.
  intros [p|] lo rest H W; cbn [option_map somes]; [|exact W]. destruct (H p eq_refl) as [A B]. destruct (prop_range_ordered _ _ A B) as [C D].
  unfold arb_range. destruct (prop_range (fst p) (snd p)) as [s e]. cbn [well_drawn fst snd] in *. auto.
Qed.

Lemma interleave_drawn : forall inserts l lo, Forall (fun o => forall p, o = Some p -> pair_ok p) inserts -> ascends lo l -> Forall unit_ok l ->
  well_drawn lo (somes (interleave (inserts_of inserts) (copies l))).
Proof.
  induction inserts as [|o inserts IH]; intros l lo I A F; [exact (copies_drawn (length l) l lo (le_n _) A F)|].
  assert (REST : forall ins, Forall (fun o => forall p, o = Some p -> pair_ok p) ins -> well_drawn lo (somes (inserts_of ins))).
  { clear. induction ins as [|x ins IH]; intros H; [exact I|]. cbn [map]. apply insert_drawn; [exact (Forall_inv H)|exact (IH (Forall_inv_tail H))]. }
  destruct l as [|a [|b l]]; [exact (REST (o :: inserts) I)|exact (REST (o :: inserts) I)|].
  change (inserts_of (o :: inserts)) with (option_map (fun p => (false, arb_range p)) o :: inserts_of inserts). cbn [tuples map interleave fst snd].
  destruct A as (A1 & A2 & A3). rewrite (prop_range_le a b A2). apply insert_drawn; [exact (Forall_inv I)|]. cbn [somes well_drawn].
  split; [exact A1|]. split; [exact A2|]. split; [exact (Forall_inv (Forall_inv_tail F))|]. apply IH; [exact (Forall_inv_tail I)|exact A3|exact (Forall_inv_tail (Forall_inv_tail F))].
Qed.

Lemma arb_drawn : forall cuts inserts, drawn cuts inserts -> well_drawn 0 (arb_text_edit cuts inserts).
Proof.
  intros cuts inserts (C & I). unfold arb_text_edit. apply interleave_drawn; [exact I|exact (sort_ascends cuts)|].
  apply Forall_forall. intros x J. rewrite Forall_forall in C. apply C. exact (Permutation_in _ (Permutation_sym (sort_perm cuts)) J).
Qed.

(** ** Scaling *)

Definition at_len (len : nat) (x : N) : nat := N.to_nat (scale x (N.of_nat len)).

Lemma at_len_mono : forall len x y, (x <= y)%N -> at_len len x <= at_len len y.
Proof. intros len x y L. unfold at_len. pose proof (scale_mono x y (N.of_nat len) L). lia. Qed.

Lemma at_len_bound : forall len x, unit_ok x -> at_len len x <= len.
Proof. intros len x L. unfold at_len. pose proof (scale_bound x (N.of_nat len) L). lia. Qed.

Lemma scaled : forall len s e, (s <= e)%N -> scale_range (s, e) len = Ok (mkRange (at_len len s) (at_len len e)).
Proof. intros len s e L. unfold scale_range. cbn [fst snd]. apply from_to_ok. exact (at_len_mono len s e L). Qed.

(** Every offset is some fraction of the length. *)
Definition fraction (len o : nat) : N := ((N.of_nat o * u32_max + N.of_nat len - 1) / N.of_nat len)%N.

Lemma fraction_ok : forall len o, 0 < len -> o <= len -> (N.of_nat len <= u32_max)%N -> unit_ok (fraction len o) /\ at_len len (fraction len o) = o.
Proof.
  intros len o P L B. unfold fraction, at_len, scale, unit_ok. change 4294967295%N with u32_max. assert (UP : (0 < u32_max)%N) by reflexivity. remember u32_max as M. clear HeqM. remember (N.of_nat len) as n. remember (N.of_nat o) as k.
  assert (n <> 0)%N by lia. assert (k <= n)%N by lia. set (q := ((k * M + n - 1) / n)%N).
  pose proof (N.div_mod (k * M + n - 1) n ltac:(assumption)) as D. pose proof (N.mod_lt (k * M + n - 1) n ltac:(assumption)) as D2. fold q in D. remember ((k * M + n - 1) mod n)%N as r. clear Heqr.
  assert (Q1 : (k * M <= n * q)%N) by lia. assert (Q2 : (n * q < k * M + n)%N) by lia. split.
  - apply N.lt_succ_r. apply (N.mul_lt_mono_pos_l n); [lia|]. assert (k * M <= n * M)%N by (apply N.mul_le_mono_r; assumption). lia.
  - assert (E : (q * n / M = k)%N); [|lia]. symmetry. apply (N.div_unique (q * n) M k (q * n - k * M)%N); lia.
Qed.

Lemma fraction_mono : forall len o o', 0 < len -> o <= o' -> (fraction len o <= fraction len o')%N.
Proof. intros len o o' P L. unfold fraction. apply N.div_le_mono; [lia|]. assert (N.of_nat o * u32_max <= N.of_nat o' * u32_max)%N by (apply N.mul_le_mono_r; lia). lia. Qed.

(** ** Edits *)

Lemma ascii_sub : forall s a b, ascii s -> ascii (sub a b s).
Proof.
  intros s a b A. unfold ascii in *. rewrite Forall_forall in *. intros x I. apply A. unfold sub in I. rewrite <- (firstn_skipn a s). apply in_or_app. right.
  rewrite <- (firstn_skipn (b - a) (skipn a s)). apply in_or_app. left. exact I.
Qed.

Lemma ascii_slice : forall t a b, ascii t -> a <= b -> b <= length t -> exists s, slice (as_text t) (mkRange a b) = Ok s /\ as_str s = Ok (sub a b t).
Proof. intros t a b A L B. apply slice_as_str; [exact L| |]; apply FallCheck.ascii_aligned; try exact A; lia. Qed.

Lemma op_ok : forall t s e c, ascii t -> (s <= e)%N -> unit_ok e ->
  as_edit_op (as_text t) (c, (s, e)) = Ok (if c then Copy (mkRange (at_len (length t) s) (at_len (length t) e)) else Insert (sub (at_len (length t) s) (at_len (length t) e) t)).
Proof.
  intros t s e c A L B. unfold as_edit_op. rewrite text_len_ok by apply as_text_wf. rewrite as_text_bytes. cbn [bind fst snd]. rewrite (scaled _ s e L). cbn [bind]. destruct c; [reflexivity|].
  destruct (ascii_slice t (at_len (length t) s) (at_len (length t) e) A (at_len_mono _ _ _ L) (at_len_bound _ _ B)) as (x & -> & E). cbn [bind]. rewrite E. reflexivity.
Qed.

Lemma edit_ok : forall t ops lo, ascii t -> well_drawn lo ops -> exists es, as_text_edit ops (as_text t) = Ok es /\ shuffles t (at_len (length t) lo) es.
Proof.
  intros t ops. induction ops as [|[[] [s e]] ops IH]; intros lo A W; cbn [as_text_edit well_drawn] in *; [exists []; split; [reflexivity|exact I]| |].
  - destruct W as (W1 & W2 & W3 & W4). rewrite (op_ok t s e true A W2 W3). cbn [bind]. destruct (IH e A W4) as (es & -> & S). eexists. split; [reflexivity|]. cbn [shuffles rstart rend].
    pose proof (at_len_mono (length t) _ _ W1). pose proof (at_len_mono (length t) _ _ W2). pose proof (at_len_bound (length t) _ W3). auto.
  - destruct W as (W1 & W2 & W3). rewrite (op_ok t s e false A W1 W2). cbn [bind]. destruct (IH lo A W3) as (es & -> & S). eexists. split; [reflexivity|]. cbn [shuffles]. split; [|exact S].
    exists (at_len (length t) s), (at_len (length t) e). pose proof (at_len_mono (length t) _ _ W1). pose proof (at_len_bound (length t) _ W2). auto.
Qed.

Lemma apply_shuffle : forall t es acc lo, ascii t -> shuffles t lo es -> apply_from acc es (as_text t) = Ok (acc ++ result_of t es).
Proof.
  intros t es. induction es as [|[r|b] es IH]; intros acc lo A S; cbn [apply_from shuffles] in *; [rewrite List.app_nil_r; reflexivity| |].
  - destruct S as (S1 & S2 & S3 & S4). destruct r as [i j]. cbn [rstart rend] in *. destruct (ascii_slice t i j A S2 S3) as (x & -> & E). cbn [bind]. rewrite E. cbn [bind].
    rewrite (IH _ _ A S4). unfold result_of. cbn [flat_map op_bytes rstart rend]. rewrite List.app_assoc. reflexivity.
  - destruct S as (S1 & S2). rewrite as_str_as_text. cbn [bind]. rewrite (IH _ _ A S2). unfold result_of. cbn [flat_map op_bytes]. rewrite List.app_assoc. reflexivity.
Qed.

Lemma sub_in : forall a b (s : bytes), incl (sub a b s) s.
Proof. intros a b s x I. unfold sub in I. rewrite <- (firstn_skipn a s). apply in_or_app. right. rewrite <- (firstn_skipn (b - a) (skipn a s)). apply in_or_app. left. exact I. Qed.

Lemma shuffle_incl : forall t es lo, shuffles t lo es -> incl (result_of t es) t /\ Forall (fun o => match o with Copy _ => True | Insert b => incl b t end) es.
Proof.
  intros t es. induction es as [|[r|b] es IH]; intros lo S; cbn [shuffles] in *; [split; [intros x []|constructor]| |].
  - destruct S as (_ & _ & _ & S). destruct (IH _ S) as [I1 I2]. split; [|constructor; [exact I|exact I2]]. unfold result_of in *. cbn [flat_map op_bytes]. apply incl_app; [apply sub_in|exact I1].
  - destruct S as ((i & j & _ & ->) & S). destruct (IH _ S) as [I1 I2]. split; [|constructor; [apply sub_in|exact I2]]. unfold result_of in *. cbn [flat_map op_bytes]. apply incl_app; [apply sub_in|exact I1].
Qed.

Lemma shuffle_ltr : forall t es lo, shuffles t lo es -> left_to_right lo es.
Proof. intros t es. induction es as [|[r|b] es IH]; intros lo S; cbn [shuffles left_to_right] in *; [exact I| |]; [destruct S as (S1 & S2 & S3 & S4); split; [lia|auto]|destruct S as [_ S]; auto]. Qed.

(** ** Normalizing *)

Section Normalize.
  Variable space : bytes -> bool.

  Lemma drop_in : forall cs c, In c cs -> space c = false -> In c (drop_while space cs).
  Proof. induction cs as [|d cs IH]; intros c I E; [destruct I|]. cbn [drop_while]. destruct (space d) eqn:D; [|exact I]. destruct I as [<-|I]; [congruence|auto]. Qed.

  Lemma drop_incl : forall cs, incl (drop_while space cs) cs.
  Proof. induction cs as [|d cs IH]; intros x I; [destruct I|]. cbn [drop_while] in I. destruct (space d); [right; auto|exact I]. Qed.

  Lemma drop_all : forall cs, (forall c, In c cs -> space c = true) -> drop_while space cs = [].
  Proof. induction cs as [|d cs IH]; intros H; [reflexivity|]. cbn [drop_while]. rewrite (H d (or_introl eq_refl)). apply IH. intros c I. apply H. right. exact I. Qed.

  Lemma is_blank_iff : forall s, ascii s -> is_blank space s = true <-> forall b, In b s -> space [b] = true.
  Proof.
    intros s A. unfold is_blank, trim_str. rewrite (ascii_chars s A). split.
    - intros H b I. destruct (space [b]) eqn:E; [reflexivity|]. exfalso.
      assert (J : In [b] (rev (drop_while space (rev (drop_while space (map (fun b => [b]) s)))))).
      { apply -> in_rev. apply drop_in; [|exact E]. apply -> in_rev. apply drop_in; [|exact E]. apply in_map_iff. eauto. }
      assert (K : In b (concat (rev (drop_while space (rev (drop_while space (map (fun b => [b]) s))))))) by (apply in_concat; exists [b]; split; [exact J|left; reflexivity]).
      destruct (concat _); [destruct K|discriminate H].
    - intros H. rewrite (drop_all (map _ s)); [reflexivity|]. intros c I. apply in_map_iff in I. destruct I as (b & <- & I). exact (H b I).
  Qed.

  Lemma trim_end_in : forall s b, ascii s -> In b s -> space [b] = false -> In b (trim_end space s).
  Proof.
    intros s b A I E. unfold trim_end. rewrite (ascii_chars s A). apply in_concat. exists [b]. split; [|left; reflexivity]. apply -> in_rev. apply drop_in; [|exact E]. apply -> in_rev. apply in_map_iff. eauto.
  Qed.

  Lemma trim_end_incl : forall s, incl (trim_end space s) s.
  Proof. intros s b I. unfold trim_end in I. apply in_concat in I. destruct I as (c & I & J). apply in_rev in I. apply drop_incl in I. apply in_rev in I. rewrite <- (chars_all s). apply in_concat. eauto. Qed.

  Lemma strip_incl : forall l, incl (strip_cr l) l.
  Proof.
    intros l x I. unfold strip_cr in I. destruct (rev l) as [|b r] eqn:E; [exact I|]. destruct (Nat.eq_dec b 13) as [->|N].
    - apply in_rev. rewrite E. right. apply in_rev. exact I.
    - do 14 (destruct b as [|b]; [try exact I; try (destruct (N eq_refl))|]). exact I.
  Qed.

  Lemma strip_in : forall l b, In b l -> b <> 13 -> In b (strip_cr l).
  Proof.
    intros l b I N. unfold strip_cr. destruct (rev l) as [|c r] eqn:E; [exact I|]. destruct (Nat.eq_dec c 13) as [->|M].
    - apply -> in_rev. apply in_rev in I. rewrite E in I. destruct I as [I|I]; [congruence|exact I].
    - do 14 (destruct c as [|c]; [try exact I; try (destruct (M eq_refl))|]). exact I.
  Qed.

  Lemma lines_incl : forall s cur l, In l (lines_from cur s) -> incl l (cur ++ s).
  Proof.
    induction s as [|b s IH]; intros cur l I; cbn [lines_from] in I.
    - rewrite List.app_nil_r. destruct cur; [destruct I|]. destruct I as [<-|[]]. apply incl_refl.
    - destruct (b =? 10).
      + destruct I as [<-|I]; [intros x J; apply in_or_app; left; exact (strip_incl _ _ J)|]. intros x J. apply in_or_app. right. right. exact (IH _ _ I x J).
      + intros x J. specialize (IH _ _ I x J). rewrite <- List.app_assoc in IH. exact IH.
  Qed.

  Lemma lines_in : forall s cur b, In b (cur ++ s) -> b <> 10 -> b <> 13 -> exists l, In l (lines_from cur s) /\ In b l.
  Proof.
    induction s as [|c s IH]; intros cur b I N1 N2; cbn [lines_from].
    - rewrite List.app_nil_r in I. destruct cur as [|x cur]; [destruct I|]. eexists. split; [left; reflexivity|exact I].
    - destruct (c =? 10) eqn:E.
      + apply Nat.eqb_eq in E. apply in_app_or in I. destruct I as [I|[I|I]]; [|congruence|].
        * eexists. split; [left; reflexivity|exact (strip_in _ _ I N2)].
        * destruct (IH [] b I N1 N2) as (l & J & K). exists l. split; [right; exact J|exact K].
      + destruct (IH (cur ++ [c]) b) as (l & J & K); [rewrite <- List.app_assoc; exact I|exact N1|exact N2|]. eauto.
  Qed.

  Lemma minimum_le : forall l m x, minimum l = Some m -> In x l -> m <= x.
  Proof.
    induction l as [|y l IH]; intros m x H I; [destruct I|]. cbn [minimum] in H. injection H as <-. destruct I as [->|I].
    - destruct (minimum l); lia.
    - destruct (minimum l) as [z|] eqn:E; [specialize (IH z x eq_refl I); lia|]. destruct l; [destruct I|discriminate E].
  Qed.

  Lemma leading_le : forall l, leading l <= length l.
  Proof. induction l as [|b l IH]; cbn [leading length]; [lia|]. destruct (b =? 32); lia. Qed.

  Hypothesis NL : space [10] = true.
  Hypothesis CR : space [13] = true.

  Lemma incl_ascii : forall a b, incl a b -> ascii b -> ascii a.
  Proof. intros a b I A. unfold ascii in *. rewrite Forall_forall in *. intros x J. exact (A x (I x J)). Qed.

  Lemma dropped_in : forall (p : bytes -> bool) ls l, In l ls -> p l = false -> In l (drop_while p ls).
  Proof. intros p. induction ls as [|d ls IH]; intros l I E; [destruct I|]. cbn [drop_while]. destruct (p d) eqn:D; [|exact I]. destruct I as [<-|I]; [congruence|auto]. Qed.

  Lemma dropped_incl : forall (p : bytes -> bool) ls, incl (drop_while p ls) ls.
  Proof. intros p. induction ls as [|d ls IH]; intros x I; [destruct I|]. cbn [drop_while] in I. destruct (p d); [right; auto|exact I]. Qed.

  Lemma normalize_ok : forall txt, ascii txt -> exists n, normalize space txt = Ok n /\ ascii n /\ incl n (10 :: txt).
  Proof.
    intros txt A. unfold normalize. destruct (is_blank space txt) eqn:B; [exists []; split; [reflexivity|split; [constructor|intros x []]]|]. cbv zeta.
    set (ls := drop_while (is_blank space) (str_lines (trim_end space txt))).
    assert (LI : forall l, In l ls -> incl l txt).
    { intros l I x J. apply dropped_incl in I. apply trim_end_incl. apply (lines_incl _ _ _ I). exact J. }
    assert (NE : exists l, In l ls /\ is_blank space l = false).
    { assert (EX : exists b, In b txt /\ space [b] = false).
      { destruct (existsb (fun b => negb (space [b])) txt) eqn:X; [apply existsb_exists in X; destruct X as (b & I & N); exists b; split; [exact I|apply negb_true_iff; exact N]|]. exfalso.
        assert (Y : is_blank space txt = true); [|congruence]. apply is_blank_iff; [exact A|]. intros b I. destruct (space [b]) eqn:S; [reflexivity|].
        assert (Z : existsb (fun b => negb (space [b])) txt = true) by (apply existsb_exists; exists b; rewrite S; auto). congruence. }
      destruct EX as (b & I & N). destruct (lines_in (trim_end space txt) [] b) as (l & J & K); [exact (trim_end_in txt b A I N)|intros ->; congruence|intros ->; congruence|].
      assert (BL : is_blank space l = false).
      { destruct (is_blank space l) eqn:X; [|reflexivity]. exfalso. rewrite is_blank_iff in X; [rewrite (X b K) in N; discriminate N|].
        apply (incl_ascii l txt); [|exact A]. intros x Q. apply trim_end_incl. exact (lines_incl _ _ _ J x Q). }
      exists l. split; [apply dropped_in; assumption|exact BL]. }
    destruct (minimum (map leading (filter (fun l => negb (is_blank space l)) ls))) as [m|] eqn:M.
    2: { exfalso. destruct NE as (l & I & N). assert (J : In l (filter (fun l => negb (is_blank space l)) ls)) by (apply filter_In; rewrite N; auto).
      destruct (filter _ ls); [destruct J|discriminate M]. }
    cbn [unwrap bind]. assert (MIN : forall l, In l ls -> is_blank space l = false -> m <= length l).
    { intros l I N. pose proof (minimum_le _ _ (leading l) M) as Q. pose proof (leading_le l). assert (In (leading l) (map leading (filter (fun l => negb (is_blank space l)) ls))) by (apply in_map; apply filter_In; rewrite N; auto). specialize (Q H0). lia. }
    clear NE M. clearbody ls. clear B. assert (G : exists n, flat_map_res (dedent space m) ls = Ok n /\ incl n (10 :: txt)).
    { induction ls as [|l ls IH]; [exists []; split; [reflexivity|intros x []]|]. destruct IH as (n & E & I); [intros x J; apply LI; right; exact J|intros x J; apply MIN; right; exact J|].
      cbn [flat_map_res]. assert (D : exists d, dedent space m l = Ok d /\ incl d (10 :: txt)).
      { unfold dedent. destruct (is_blank space l) eqn:BL; [exists [10]; split; [reflexivity|intros x [<-|[]]; left; reflexivity]|].
        pose proof (MIN l (or_introl eq_refl) BL) as ML. assert (AL : ascii l) by (apply (incl_ascii l txt); [exact (LI l (or_introl eq_refl))|exact A]).
        unfold str_index. cbn [rstart rend]. replace (m <=? length l) with true by (symmetry; apply Nat.leb_le; exact ML). cbn [guard].
        rewrite (proj2 (boundary_spec l m) (FallCheck.ascii_aligned l m AL ML)), (proj2 (boundary_spec l (length l)) (FallCheck.ascii_aligned l (length l) AL (le_n _))). cbn [andb guard bind].
        eexists. split; [reflexivity|]. apply incl_app; [|intros x [<-|[]]; left; reflexivity]. intros x J. right. exact (LI l (or_introl eq_refl) x (sub_in _ _ _ x J)). }
      destruct D as (d & -> & DI). cbn [bind]. rewrite E. cbn [bind]. eexists. split; [reflexivity|]. apply incl_app; assumption. }
    destruct G as (n & E & I). exists n. split; [exact E|]. split; [|exact I]. apply (incl_ascii n (10 :: txt) I). constructor; [lia|exact A].
  Qed.
End Normalize.
