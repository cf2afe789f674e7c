(** Names and quoting are legible (DumpSpec.v). *)
From Coq Require Import List Arith Bool Lia String Ascii.
From Verif Require Import Base BaseFacts FallLang DumpSpec NameModel.
Import ListNotations.
Open Scope list_scope.

(** ** Quoting loses nothing: it can be undone. *)
Definition unhex (c : nat) : nat := if c <? 58 then c - 48 else c - 87.
Fixpoint unescape (s : bytes) : bytes :=
  match s with
  | [] => []
  | b :: r =>
      if b =? 92 then
        match r with
        | [] => []
        | c :: q =>
            if c =? 48 then 0 :: unescape q else if c =? 116 then 9 :: unescape q else if c =? 110 then 10 :: unescape q
            else if c =? 114 then 13 :: unescape q else if c =? 117 then
              match q with
              | _ :: h :: d :: p => if d =? 125 then unhex h :: unescape p else match p with _ :: o => (16 * unhex h + unhex d) :: unescape o | [] => [] end
              | _ => []
              end
            else c :: unescape q
        end
      else b :: unescape r
  end.

Lemma escaped_big : forall b, 128 <= b -> escaped b = [b].
Proof.
  intros b L. unfold escaped.
  repeat match goal with |- context [b =? ?k] => replace (b =? k) with false by (symmetry; apply Nat.eqb_neq; lia) end.
  replace (b <? 16) with false by (symmetry; apply Nat.ltb_ge; lia). replace (b <? 32) with false by (symmetry; apply Nat.ltb_ge; lia). reflexivity.
Qed.

Lemma unescape_one : forall b r, unescape (escaped b ++ r) = b :: unescape r.
Proof.
  intros b r. destruct (le_lt_dec 128 b) as [L|L].
  - rewrite (escaped_big b L). cbn [app unescape]. replace (b =? 92) with false by (symmetry; apply Nat.eqb_neq; lia). reflexivity.
  - do 128 (destruct b as [|b]; [reflexivity|]). lia.
Qed.
Lemma unescape_all : forall s, unescape (flat_map escaped s) = s.
Proof. intros s. induction s as [|b s IH]; [reflexivity|]. cbn [flat_map]. rewrite unescape_one, IH. reflexivity. Qed.

Lemma escaped_line : forall b, ~ In 10 (escaped b).
Proof.
  intros b. destruct (le_lt_dec 128 b) as [L|L].
  - rewrite (escaped_big b L). intros [E|[]]. lia.
  - assert (C : forallb (fun b => negb (existsb (Nat.eqb 10) (escaped b))) (seq 0 128) = true) by (vm_compute; reflexivity).
    rewrite forallb_forall in C. specialize (C b ltac:(apply in_seq; lia)). apply negb_true_iff in C. intros J.
    assert (X : existsb (Nat.eqb 10) (escaped b) = true) by (apply existsb_exists; exists 10; auto). congruence.
Qed.

Lemma quoted_inj : forall s s', quoted s = quoted s' -> s = s'.
Proof.
  intros s s' E. unfold quoted in E. cbn [app] in E. injection E as E. apply app_inj_tail in E. destruct E as (E & _).
  rewrite <- (unescape_all s), <- (unescape_all s'), E. reflexivity.
Qed.
Lemma quoted_line : forall s, ~ In 10 (quoted s).
Proof.
  intros s. unfold quoted. cbn [app]. intros [J|J]; [discriminate J|]. apply in_app_or in J. destruct J as [J|[J|[]]]; [|discriminate J].
  apply in_flat_map in J. destruct J as (b & _ & J). exact (escaped_line b J).
Qed.

(** ** The tables *)
Lemma list_nat_eqb : forall a b : bytes, list_eqb Nat.eqb a b = true -> a = b.
Proof.
  induction a as [|x a IH]; intros [|y b] E; try discriminate E; [reflexivity|]. cbn [list_eqb] in E. apply andb_true_iff in E. destruct E as (X & Y).
  apply Nat.eqb_eq in X. subst y. f_equal. exact (IH b Y).
Qed.

(** The types are in increasing order and the names are all different. *)
Fixpoint increasing (l : list nat) : bool :=
  match l with x :: (y :: _) as r => (x <? y) && increasing r | _ => true end.
Fixpoint distinct (l : list string) : bool :=
  match l with x :: r => forallb (fun y => negb (String.eqb x y)) r && distinct r | [] => true end.
Fixpoint no_break (s : string) : bool :=
  match s with EmptyString => true | String a r => negb (Ascii.eqb a " "%char) && negb (Ascii.eqb a (Ascii.ascii_of_nat 10)) && no_break r end.
Definition names_ok (names : list (nat * (string * bool))) (ws : nat -> bool) (types : list nat) : bool :=
  increasing (map fst names) && distinct (map (fun x => fst (snd x)) names)
  && forallb (fun x => negb (String.eqb (fst (snd x)) "") && no_break (fst (snd x)) && Bool.eqb (snd (snd x)) (ws (fst x))) names
  && forallb (fun t => existsb (Nat.eqb t) (map fst names)) types.

Lemma increasing_all : forall l x, increasing (x :: l) = true -> forall y, In y l -> x < y.
Proof.
  induction l as [|z l IH]; intros x H y J; [destruct J|]. cbn [increasing] in H. apply andb_true_iff in H. destruct H as (A & B). apply Nat.ltb_lt in A.
  destruct J as [<-|J]; [exact A|]. pose proof (IH z B y J). lia.
Qed.

Lemma info_entry : forall names t s w, increasing (map fst names) = true -> In (t, (s, w)) names -> info_of names t = Some (FallLang.text_of s, w).
Proof.
  induction names as [|[u [s' w']] names IH]; intros t s w C J; [destruct J|]. cbn [map fst] in C. cbn [info_of].
  destruct J as [J|J]; [injection J as -> -> ->; rewrite Nat.eqb_refl; reflexivity|].
  pose proof (increasing_all _ _ C t) as L. specialize (L ltac:(apply in_map_iff; exists (t, (s, w)); auto)). rewrite (proj2 (Nat.eqb_neq t u)) by lia.
  apply IH; [|exact J]. destruct (map fst names) as [|y r]; [reflexivity|]. cbn [increasing] in C. apply andb_true_iff in C. exact (proj2 C).
Qed.

Lemma text_inj : forall s t, FallLang.text_of s = FallLang.text_of t -> s = t.
Proof.
  induction s as [|a s IH]; intros [|b t] E; try discriminate E; [reflexivity|]. cbn [FallLang.text_of] in E. injection E as E1 E2.
  f_equal; [|exact (IH t E2)]. rewrite <- (Ascii.ascii_nat_embedding a), <- (Ascii.ascii_nat_embedding b), E1. reflexivity.
Qed.

Lemma no_break_ok : forall s b, no_break s = true -> In b (FallLang.text_of s) -> b <> 32 /\ b <> 10.
Proof.
  induction s as [|a s IH]; intros b N J; [destruct J|]. cbn [no_break] in N. rewrite !andb_true_iff, !negb_true_iff in N. destruct N as ((A & B) & N).
  cbn [FallLang.text_of] in J. destruct J as [<-|J]; [|exact (IH b N J)]. apply Ascii.eqb_neq in A. apply Ascii.eqb_neq in B. split; intros E.
  - apply A. rewrite <- (Ascii.ascii_nat_embedding a), E. reflexivity.
  - apply B. rewrite <- (Ascii.ascii_nat_embedding a), E. reflexivity.
Qed.

Lemma names_parts : forall names ws types, names_ok names ws types = true ->
  increasing (map fst names) = true /\ distinct (map (fun x => fst (snd x)) names) = true
  /\ (forall t s w, In (t, (s, w)) names -> info_of names t = Some (FallLang.text_of s, w) /\ s <> EmptyString /\ no_break s = true /\ w = ws t)
  /\ forall t, In t types -> In t (map fst names).
Proof.
  intros names ws types C. unfold names_ok in C. rewrite !andb_true_iff in C. destruct C as (((C1 & C2) & C3) & C4). split; [exact C1|]. split; [exact C2|]. split.
  - intros t s w J. split; [exact (info_entry _ _ _ _ C1 J)|]. rewrite forallb_forall in C3. specialize (C3 _ J). cbn [fst snd] in C3.
    rewrite !andb_true_iff in C3. destruct C3 as ((A & B) & D). split; [intros ->; discriminate A|]. split; [exact B|]. apply eqb_prop. exact D.
  - intros t J. rewrite forallb_forall in C4. specialize (C4 t J). apply existsb_exists in C4. destruct C4 as (u & K & E). apply Nat.eqb_eq in E. subst u. exact K.
Qed.

Lemma entry_of : forall (names : list (nat * (string * bool))) t, In t (map fst names) -> exists s w, In (t, (s, w)) names.
Proof. intros names t J. apply in_map_iff in J. destruct J as ([u [s w]] & E & J). cbn in E. subst u. eauto. Qed.

Lemma names_known : forall names ws types, names_ok names ws types = true -> forall t, In t (map fst names) -> info_of names t = Some (name_of names t, ws t).
Proof.
  intros names ws types C t J. destruct (names_parts _ _ _ C) as (_ & _ & P & _). destruct (entry_of _ _ J) as (s & w & K).
  destruct (P _ _ _ K) as (E & _ & _ & ->). unfold name_of. rewrite E. reflexivity.
Qed.
Lemma names_types : forall names ws types, names_ok names ws types = true -> forall t, In t types -> In t (map fst names).
Proof. intros names ws types C. exact (proj2 (proj2 (proj2 (names_parts _ _ _ C)))). Qed.

Lemma distinct_types : forall (names : list (nat * (string * bool))) t u s w w', increasing (map fst names) = true -> distinct (map (fun x => fst (snd x)) names) = true ->
  In (t, (s, w)) names -> In (u, (s, w')) names -> t = u.
Proof.
  induction names as [|[v [s0 w0]] names IH]; intros t u s w w' C D J K; [destruct J|]. cbn [map fst snd distinct] in *. apply andb_true_iff in D. destruct D as (D1 & D2).
  assert (C' : increasing (map fst names) = true).
  { destruct (map fst names) as [|y r]; [reflexivity|]. cbn [increasing] in C. apply andb_true_iff in C. exact (proj2 C). }
  assert (NO : forall x y, In (x, (s0, y)) names -> False).
  { intros x y X. rewrite forallb_forall in D1. specialize (D1 s0 ltac:(apply in_map_iff; exists (x, (s0, y)); auto)). rewrite String.eqb_refl in D1. discriminate D1. }
  destruct J as [J|J], K as [K|K].
  - congruence.
  - injection J as <- <- <-. destruct (NO _ _ K).
  - injection K as <- <- <-. destruct (NO _ _ J).
  - eauto.
Qed.

Lemma names_legible : forall names ws types, names_ok names ws types = true -> legible (name_of names) quoted (fun t => In t (map fst names)).
Proof.
  intros names ws types C. destruct (names_parts _ _ _ C) as (C1 & C2 & P & _). constructor.
  - intros t b J K. destruct (entry_of _ _ J) as (s & w & I). destruct (P _ _ _ I) as (E & _ & N & _). unfold name_of in K. rewrite E in K. exact (no_break_ok s b N K).
  - intros t J. destruct (entry_of _ _ J) as (s & w & I). destruct (P _ _ _ I) as (E & N & _). unfold name_of. rewrite E. destruct s; [congruence|discriminate].
  - intros t u J K E. destruct (entry_of _ _ J) as (s & w & I). destruct (entry_of _ _ K) as (s' & w' & I'). destruct (P _ _ _ I) as (E1 & _). destruct (P _ _ _ I') as (E2 & _).
    unfold name_of in E. rewrite E1, E2 in E. apply text_inj in E. subst s'. exact (distinct_types _ _ _ _ _ _ C1 C2 I I').
  - exact quoted_line.
  - exact quoted_inj.
Qed.
