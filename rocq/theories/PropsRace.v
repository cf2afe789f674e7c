(** C34, continued: the index when the file system changes while a notification is handled. *)
From Coq Require Import List Arith Bool Lia.
From Verif Require Import Base BaseFacts IndexModel IndexSpec IndexProofs.
Import ListNotations.

Lemma walk_reads : forall content V (mapper : content -> option V) reads ks m k,
  im_get V (fold_left (fun m k => match map_file content V mapper (reads k) k with Some v => im_insert V m k v | None => m end) ks m) k
  = if existsb (path_eqb k) ks then match map_file content V mapper (reads k) k with Some v => Some v | None => im_get V m k end else im_get V m k.
Proof.
  intros content V mapper reads. induction ks as [|x ks IH]; intros m k; cbn [fold_left existsb]; [reflexivity|]. rewrite IH.
  destruct (path_eqb k x) eqn:E; cbn [orb].
  - apply path_eqb_spec in E. subst x. destruct (map_file content V mapper (reads k) k) as [v|] eqn:M.
    + rewrite get_insert. rewrite (proj2 (path_eqb_spec k k) eq_refl). destruct (existsb (path_eqb k) ks); reflexivity.
    + destruct (existsb (path_eqb k) ks); reflexivity.
  - assert (G : im_get V (match map_file content V mapper (reads x) x with Some v => im_insert V m x v | None => m end) k = im_get V m k).
    { destruct (map_file content V mapper (reads x) x) as [v|]; [|reflexivity]. rewrite get_insert.
      destruct (path_eqb x k) eqn:Q; [|reflexivity]. apply path_eqb_spec in Q. subst x. rewrite (proj2 (path_eqb_spec k k) eq_refl) in E. discriminate. }
    rewrite G. reflexivity.
Qed.

Lemma get_filter : forall V (q : path -> bool) m k, im_get V (filter (fun x => q (fst x)) m) k = if q k then im_get V m k else None.
Proof.
  intros V q m k. unfold im_get. induction m as [|(p, v) m IH]; cbn [filter find_first fst option_map]; [destruct (q k); reflexivity|].
  destruct (q p) eqn:Q.
  - cbn [find_first fst]. destruct (path_eqb p k) eqn:E; [|exact IH]. apply path_eqb_spec in E. subst p. rewrite Q. reflexivity.
  - rewrite IH. destruct (path_eqb p k) eqn:E; [|reflexivity]. apply path_eqb_spec in E. subst p. rewrite Q. reflexivity.
Qed.

(** The path [n] was reported; [there] is the state in which it was looked for, [kind] the one in which it was asked whether it
    is a directory, [walked] the one in which the directory was listed, [reads p] the one in which [p] was read.  What the index
    has for [p] afterwards is decided by these four alone; if nothing here applies, it has what it had. *)
Section Race.
  Variables (content V : Type) (mapper : content -> option V) (passes : path -> bool).
  Variables (there kind walked : fs_state content) (reads : path -> fs_state content) (n p : path).
  Definition found : Prop := dir_at content there n \/ file_at content there n.
  Definition stored (v : V) : Prop := passes p = true /\ value_at content V mapper (reads p) p v /\ found /\
    ((n = p /\ ~ dir_at content kind n) \/ (dir_at content kind n /\ inside n p /\ file_at content walked p)).
  Definition dropped : Prop :=
    (n = p /\ ~ dir_at content kind n /\ (~ found \/ (passes p = true /\ ~ has_value content V mapper (reads p) p)))
    \/ (dir_at content kind n /\ ~ found /\ inside n p).
End Race.

Theorem C34_race : forall content V (mapper : content -> option V) passes there kind walked reads n p m,
  let after := im_get V (change content V mapper passes there kind walked reads n m) p in
  (forall v, stored content V mapper passes there kind walked reads n p v -> after = Some v)
  /\ (dropped content V mapper passes there kind reads n p -> after = None)
  /\ ((forall v, ~ stored content V mapper passes there kind walked reads n p v) -> ~ dropped content V mapper passes there kind reads n p -> after = im_get V m p).
Proof.
  intros content V mapper passes there kind walked reads n p m. cbv zeta. unfold change.
  destruct (fs_is_dir content kind n) eqn:D.
  - apply is_dir_spec in D. destruct (fs_exists content there n) eqn:X.
    + apply exists_spec in X. rewrite walk_reads. destruct (existsb (path_eqb p) (filter passes (walk content walked n))) eqn:W.
      * apply walk_mem in W as (P & U & FA). split; [|split].
        -- intros v (_ & Y & _). apply map_file_some in Y. rewrite Y. reflexivity.
        -- intros [(_ & ND & _)|(_ & NF & _)]; [contradiction|]. destruct (NF X).
        -- intros NS _. destruct (map_file content V mapper (reads p) p) as [v|] eqn:M; [|reflexivity]. destruct (NS v). apply map_file_some in M. split; [exact P|]. split; [exact M|]. split; [exact X|]. right. auto.
      * split; [|split].
        -- intros v (P & Y & _ & [(_ & ND)|(_ & U & FA)]); [contradiction|].
           assert (Z : existsb (path_eqb p) (filter passes (walk content walked n)) = true) by (apply walk_mem; auto). congruence.
        -- intros [(_ & ND & _)|(_ & NF & _)]; [contradiction|]. destruct (NF X).
        -- reflexivity.
    + assert (NF : ~ found content there n) by (intros Q; apply exists_spec in Q; congruence).
      rewrite (get_filter V (fun q => negb (under n q))). destruct (under n p) eqn:U; cbn [negb].
      * apply under_spec in U. split; [intros v (_ & _ & F & _); contradiction|]. split; [reflexivity|]. intros _ ND. destruct ND. right. auto.
      * split; [intros v (_ & _ & F & _); contradiction|]. split; [|reflexivity]. intros [(_ & ND & _)|(_ & _ & I)]; [contradiction|]. apply under_spec in I. congruence.
  - assert (ND : ~ dir_at content kind n) by (intros Q; apply is_dir_spec in Q; congruence).
    destruct (fs_exists content there n) eqn:X.
    + apply exists_spec in X. destruct (passes n) eqn:P.
      * destruct (map_file content V mapper (reads n) n) as [v|] eqn:M.
        -- rewrite get_insert. destruct (path_eqb n p) eqn:E.
           ++ apply path_eqb_spec in E. subst p. apply map_file_some in M as M'. split; [|split].
              ** intros w (_ & Y & _). apply map_file_some in Y. congruence.
              ** intros [(_ & _ & [F|(_ & H)])|(Q & _)]; [destruct (F X)|destruct H; exists v; exact M'|contradiction].
              ** intros NS _. destruct (NS v). split; [exact P|]. split; [exact M'|]. split; [exact X|]. left. auto.
           ++ assert (NE : n <> p) by (intros Q; apply path_eqb_spec in Q; congruence). split; [|split; [|reflexivity]].
              ** intros w (_ & _ & _ & [(Q & _)|(Q & _)]); contradiction.
              ** intros [(Q & _)|(Q & _)]; contradiction.
        -- rewrite get_remove. destruct (path_eqb n p) eqn:E.
           ++ apply path_eqb_spec in E. subst p. split; [|split; [reflexivity|]].
              ** intros w (_ & Y & _). apply map_file_some in Y. congruence.
              ** intros _ N. destruct N. left. split; [reflexivity|]. split; [exact ND|]. right. split; [exact P|]. apply map_file_none. exact M.
           ++ assert (NE : n <> p) by (intros Q; apply path_eqb_spec in Q; congruence). split; [|split; [|reflexivity]].
              ** intros w (_ & _ & _ & [(Q & _)|(Q & _)]); contradiction.
              ** intros [(Q & _)|(Q & _)]; contradiction.
      * split; [|split; [|reflexivity]].
        -- intros w (P' & _ & _ & [(Q & _)|(Q & _)]); [|contradiction]. subst p. congruence.
        -- intros [(Q & _ & [F|(P' & _)])|(Q & _)]; [destruct (F X)|subst p; congruence|contradiction].
    + assert (NF : ~ found content there n) by (intros Q; apply exists_spec in Q; congruence). rewrite get_remove. destruct (path_eqb n p) eqn:E.
      * apply path_eqb_spec in E. subst p. split; [intros v (_ & _ & F & _); contradiction|]. split; [reflexivity|]. intros _ N. destruct N. left. auto.
      * assert (NE : n <> p) by (intros Q; apply path_eqb_spec in Q; congruence). split; [intros v (_ & _ & F & _); contradiction|]. split; [|reflexivity].
        intros [(Q & _)|(Q & F & _)]; contradiction.
Qed.
Print Assumptions C34_race.

(** A directory that appears between the two looks loses its entries, one that stays gets them. *)
Example C34_race_case : let s := mkFsState nat [([[1]; [2]], 5)] [[]; [[1]]] in let none := mkFsState nat [] [[]] in let m := [([[1]; [3]], 7)] in
  stored nat nat (@Some nat) (fun _ => true) s s s (fun _ => s) [[1]] [[1]; [2]] 5
  /\ dropped nat nat (@Some nat) (fun _ => true) none s (fun _ => s) [[1]] [[1]; [3]]
  /\ im_get nat (change nat nat (@Some nat) (fun _ => true) s s s (fun _ => s) [[1]] m) [[1]; [3]] = Some 7
  /\ im_get nat (change nat nat (@Some nat) (fun _ => true) none s s (fun _ => s) [[1]] m) [[1]; [3]] = None.
Proof.
  cbv zeta. split; [|split; [|split; vm_compute; reflexivity]].
  - split; [reflexivity|]. split; [exists 5; split; reflexivity|]. split; [left; right; left; reflexivity|]. right. split; [right; left; reflexivity|]. split; [exists [[2]]; reflexivity|]. exists 5. left. reflexivity.
  - right. split; [right; left; reflexivity|]. split; [|exists [[3]]; reflexivity]. intros [[H|[]]|[c []]]. discriminate H.
Qed.
