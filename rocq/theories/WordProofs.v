(** Proofs about the 32-bit offsets: below 2^32 they are the unbounded ones. *)
From Coq Require Import List Arith Bool NArith Lia.
From Verif Require Import Base BaseFacts TextModel EditModel LexModel TreeModel SearchModel FileEditModel AnalysisModel RustEditModel
  TextSpec TextProofs TreeSpec TreeProofs SearchSpec SearchProofs LexSpec LexProofs WordModel.
Import ListNotations.

Lemma M_val : N.of_nat M = 4294967296%N.
Proof. unfold M. apply N2Nat.id. Qed.

Lemma M_pos : 5000 < M.
Proof.
  assert (H : (5000 < N.of_nat M)%N) by (unfold M; rewrite N2Nat.id; reflexivity).
  change 5000 with (N.to_nat 5000%N). lia.
Qed.
Global Opaque M.

Lemma as_u32_small : forall n, n < M -> as_u32 n = n.
Proof. intros n H. unfold as_u32. rewrite Nat.mod_small by exact H. reflexivity. Qed.

Lemma as_u32_M : as_u32 M = 0.
Proof. unfold as_u32. rewrite Nat.mod_same by (pose proof M_pos; lia). reflexivity. Qed.

Section Words.
  Variable m : build.

  Lemma wadd_ok : forall a b, a + b < M -> wadd m a b = Ok (a + b).
  Proof. intros a b H. unfold wadd. rewrite (proj2 (Nat.ltb_lt _ _) H). reflexivity. Qed.

  Lemma wsub_ok : forall a b, b <= a -> wsub m a b = Ok (a - b).
  Proof. intros a b H. unfold wsub. rewrite (proj2 (Nat.leb_le _ _) H). reflexivity. Qed.

  Lemma wsub_usub : forall a b, m = Debug \/ b <= a -> wsub m a b = usub a b.
  Proof. intros a b H. unfold wsub, usub. destruct (b <=? a) eqn:E; [reflexivity|]. apply Nat.leb_gt in E. destruct H as [->|H]; [reflexivity|lia]. Qed.

  Lemma from_len32_ok : forall a n, a + n < M -> from_len32 m a n = Ok (mkRange a (a + n)).
  Proof. intros a n H. unfold from_len32. rewrite wadd_ok by exact H. cbn [bind]. apply from_to_ok. lia. Qed.

  Lemma range_len32_ok : forall r, m = Debug \/ proper r -> range_len32 m r = range_len r.
  Proof. intros r H. apply wsub_usub. exact H. Qed.

  Lemma shift32_ok : forall r o, m = Debug \/ proper r -> rstart r + o < M -> rend r + o < M -> shift_right32 m r o = shift_right r o.
  Proof.
    intros r o H A B. unfold shift_right32, shift_right. rewrite wadd_ok by exact A. cbn [bind]. rewrite range_len32_ok by exact H.
    unfold range_len, usub. destruct (rstart r <=? rend r) eqn:E; [|reflexivity]. apply Nat.leb_le in E. cbn [bind].
    rewrite from_len32_ok by lia. rewrite from_len_ok. reflexivity.
  Qed.

  (** ** Text *)
  Lemma as_text32_ok : forall s, length s < M -> as_text32 m s = Ok (as_text s).
  Proof. intros s H. unfold as_text32. rewrite as_u32_small by exact H. rewrite from_len32_ok by lia. reflexivity. Qed.

  Lemma text_len32_ok : forall t, wf_text t -> text_len32 m t = text_len t.
  Proof. intros t [A _]. apply wsub_usub. right. exact A. Qed.

  Lemma slice32_ok : forall t r, wf_text t -> length (owned t) < M -> (m = Debug /\ rstart r < M) \/ proper r -> slice32 m t r = slice t r.
  Proof.
    intros t r [A B] S H. unfold slice32, slice. rewrite text_len32_ok by (split; assumption). unfold text_len.
    rewrite usub_le by exact A. cbn [bind]. destruct (rend r <=? rend (trange t) - rstart (trange t)) eqn:E; [|reflexivity].
    apply Nat.leb_le in E. cbn [guard].
    destruct (rstart r <=? rend r) eqn:E2.
    - apply Nat.leb_le in E2. rewrite wadd_ok by lia. cbn [bind]. destruct (rstart (trange t) + rstart r <=? rend (trange t)) eqn:E3; [|reflexivity].
      cbn [guard]. rewrite wsub_ok by exact E2. rewrite usub_le by exact E2. cbn [bind]. rewrite wadd_ok by lia. reflexivity.
    - apply Nat.leb_gt in E2. destruct H as [[Dm Rs]|H]; [|unfold proper in H; lia]. unfold wadd at 1, wsub, usub. rewrite Dm.
      rewrite (proj2 (Nat.leb_gt _ _) E2).
      destruct (rstart (trange t) + rstart r <? M); destruct (rstart (trange t) + rstart r <=? rend (trange t)) eqn:X; cbn [bind guard]; rewrite ?X; reflexivity.
  Qed.

  Lemma from_to_inv' : forall a b, from_to a b = Ok (mkRange a b) /\ a <= b \/ from_to a b = Panic.
  Proof. intros a b. unfold from_to. destruct (a <=? b) eqn:E; cbn [guard]; [left; split; [reflexivity|apply Nat.leb_le; exact E]|right; reflexivity]. Qed.

  Lemma slice_suffix32_ok : forall t o, wf_text t -> length (owned t) < M -> slice_suffix32 m t o = slice_suffix t o.
  Proof.
    intros t o W S. unfold slice_suffix32, slice_suffix. rewrite text_len32_ok by exact W. destruct (text_len t) as [len| |]; try reflexivity.
    cbn [bind]. destruct (from_to_inv' o len) as [[-> H]| ->]; [|reflexivity]. cbn [bind]. apply slice32_ok; [exact W|exact S|right; exact H].
  Qed.

  Lemma as_str_length : forall t s, wf_text t -> as_str t = Ok s -> length s <= length (owned t).
  Proof.
    intros t s [A B] E. unfold as_str, str_index in E. apply guard_ok in E. destruct E as [_ E]. apply guard_ok in E. destruct E as [_ E].
    injection E as <-. rewrite sub_length by lia. lia.
  Qed.

  Lemma find32_ok : forall t n, wf_text t -> length (owned t) < M -> find32 t n = find t n.
  Proof.
    intros t n W S. unfold find32, find. destruct (as_str t) as [s| |] eqn:E; try reflexivity. cbn [bind].
    pose proof (as_str_length _ _ W E) as L. destruct (find_sub n s) as [i|] eqn:F; [|reflexivity]. cbn [option_map].
    destruct (find_sub_some _ _ _ F) as (X & _). rewrite as_u32_small by lia. reflexivity.
  Qed.

  Lemma concat_chars : forall s, concat (chars s) = s.
  Proof.
    induction s as [|b s IH]; [reflexivity|]. cbn [chars]. destruct s as [|c s']; [reflexivity|]. destruct (is_cont c).
    - destruct (chars (c :: s')) as [|ch r]; cbn [concat] in *; cbn [app]; rewrite <- IH; reflexivity.
    - cbn [concat]. rewrite IH. reflexivity.
  Qed.

  Lemma find_char_le : forall p cs o, find_char p cs = Some o -> o <= length (concat cs).
  Proof.
    intros p cs. induction cs as [|c r IH]; intros o E; cbn [find_char] in E; [discriminate|]. destruct (p c); [injection E as <-; lia|].
    destruct (find_char p r) as [k|]; [|discriminate]. injection E as <-. cbn [concat]. rewrite app_length. specialize (IH k eq_refl). lia.
  Qed.

  Lemma trim32_ok : forall ws t, wf_text t -> length (owned t) < M -> trim32 m ws t = trim ws t.
  Proof.
    intros ws t W S. unfold trim32, trim. destruct (as_str t) as [s| |] eqn:E; try reflexivity. cbn [bind].
    pose proof (as_str_length _ _ W E) as L.
    set (left := match find_char (fun c => negb (ws c)) (chars s) with Some o => o | None => length s end).
    assert (LL : left <= length s).
    { unfold left. destruct (find_char _ (chars s)) as [o|] eqn:F; [|lia]. apply find_char_le in F. rewrite concat_chars in F. exact F. }
    destruct (str_index s (mkRange left (length s))) as [s2| |] eqn:E2; try reflexivity. cbn [bind].
    assert (L2 : length s2 = length s - left).
    { unfold str_index in E2. apply guard_ok in E2. destruct E2 as [_ E2]. apply guard_ok in E2. destruct E2 as [_ E2]. injection E2 as <-.
      cbn [rstart rend]. rewrite sub_length by lia. reflexivity. }
    set (X := match rfind_char _ (chars s2) with Some _ => _ | None => _ end).
    assert (XB : forall k, X = Ok k -> k <= length s2).
    { unfold X. intros k Q. destruct (rfind_char _ (chars s2)) as [last|]; [|injection Q as <-; lia].
      apply bind_ok in Q. destruct Q as (s3 & Q3 & Q). apply bind_ok in Q. destruct Q as (c & Qc & Q). injection Q as <-.
      unfold str_index in Q3. apply guard_ok in Q3. destruct Q3 as [Q1 Q3]. apply guard_ok in Q3. destruct Q3 as [_ Q3]. injection Q3 as <-.
      cbn [rstart rend] in *. apply Nat.leb_le in Q1.
      assert (Z : length (concat (chars (sub last (length s2) s2))) = length s2 - last) by (rewrite concat_chars, sub_length by lia; reflexivity).
      destruct (chars (sub last (length s2) s2)) as [|c0 r0]; cbn [hd_error unwrap] in Qc; [discriminate|]. injection Qc as ->.
      cbn [concat] in Z. rewrite app_length in Z. lia. }
    destruct X as [k| |]; try reflexivity. cbn [bind]. specialize (XB k eq_refl).
    rewrite !as_u32_small by lia. destruct (from_to_inv' left (left + k)) as [[-> H]| ->]; [|reflexivity]. cbn [bind].
    apply slice32_ok; [exact W|exact S|right; exact H].
  Qed.

  Lemma node_text32_ok : forall f n, length (f_text f) < M -> (forall r, node_range (f_nodes f) n = Ok r -> proper r) -> node_text32 m f n = node_text f n.
  Proof.
    intros f n S P. unfold node_text32, node_text. destruct (node_range (f_nodes f) n) as [r| |]; try reflexivity. cbn [bind].
    rewrite as_text32_ok by exact S. cbn [bind]. apply slice32_ok; [apply as_text_wf|exact S|right; apply P; reflexivity].
  Qed.

  (** ** Edits *)
  Lemma apply_from32_ok : forall s ops acc, length s < M ->
    Forall (fun op => match op with Copy r => (m = Debug /\ rstart r < M) \/ proper r | Insert i => length i < M end) ops ->
    apply_from32 m acc ops (as_text s) = apply_from acc ops (as_text s).
  Proof.
    intros s ops. induction ops as [|[r|i] ops IH]; intros acc S F; [reflexivity| |]; inversion F as [|? ? F1 F2]; subst; cbn [apply_from32 apply_from].
    - rewrite slice32_ok by (auto using as_text_wf). destruct (slice (as_text s) r) as [t| |]; try reflexivity. cbn [bind].
      destruct (as_str t) as [c| |]; try reflexivity. cbn [bind]. apply IH; assumption.
    - rewrite as_text32_ok by exact F1. cbn [bind]. destruct (as_str (as_text i)) as [c| |]; try reflexivity. cbn [bind]. apply IH; assumption.
  Qed.

  Lemma advance_to32_ok : forall b o, o < M -> advance_to32 m b o = advance_to b o.
  Proof.
    intros b o H. unfold advance_to32, advance_to, copy_up_to. destruct (Nat.compare (last_offset b) o) eqn:E; try reflexivity.
    apply Nat.compare_lt_iff in E. rewrite wsub_ok, usub_le by lia. cbn [bind]. unfold copy_len32, copy_len.
    rewrite from_len32_ok, from_len_ok by lia. cbn [bind]. rewrite wadd_ok by lia. reflexivity.
  Qed.

  Lemma advance_last : forall b o b', advance_to b o = Ok b' -> last_offset b' = o /\ eb_text_len b' = eb_text_len b.
  Proof.
    intros b o b' E. unfold advance_to in E. destruct (Nat.compare (last_offset b) o) eqn:C; [|apply Nat.compare_lt_iff in C|discriminate].
    - injection E as <-. apply Nat.compare_eq_iff in C. auto.
    - unfold copy_up_to in E. rewrite usub_le in E by lia. cbn [bind] in E. unfold copy_len in E. rewrite from_len_ok in E. cbn [bind] in E.
      injection E as <-. cbn. split; [lia|reflexivity].
  Qed.

  Definition call_fits (c : edit_call) : Prop :=
    match c with CInsert o _ => o < M | CDelete r | CReplace r _ => rstart r < M /\ rend r < M /\ (m = Debug \/ proper r) end.

  Lemma run_call32_ok : forall b c, call_fits c -> run_call32 m b c = run_call b c.
  Proof.
    intros b [o t|r|r t] H; cbn [call_fits] in H; cbn [run_call32 run_call]; unfold eb_insert, eb_delete, eb_replace.
    - rewrite advance_to32_ok by exact H. reflexivity.
    - destruct H as (H1 & H2 & H3). rewrite advance_to32_ok by exact H1. destruct (advance_to b (rstart r)) as [b'| |] eqn:E; try reflexivity.
      cbn [bind]. rewrite range_len32_ok by exact H3. unfold range_len, usub. destruct (rstart r <=? rend r) eqn:C; [|reflexivity]. cbn [bind].
      apply Nat.leb_le in C. unfold delete_len32, delete_len. rewrite (proj1 (advance_last _ _ _ E)), wadd_ok by lia. reflexivity.
    - destruct H as (H1 & H2 & H3). rewrite advance_to32_ok by exact H1. destruct (advance_to b (rstart r)) as [b'| |] eqn:E; try reflexivity.
      cbn [bind]. rewrite range_len32_ok by exact H3. unfold range_len, usub. destruct (rstart r <=? rend r) eqn:C; [|reflexivity]. cbn [bind].
      apply Nat.leb_le in C. unfold delete_len32, delete_len, insert_. cbn [last_offset segments eb_text_len].
      rewrite (proj1 (advance_last _ _ _ E)), wadd_ok by lia. reflexivity.
  Qed.

  Lemma run_call_len : forall b c b', run_call b c = Ok b' -> eb_text_len b' = eb_text_len b.
  Proof.
    intros b [o t|r|r t] b' E; cbn [run_call] in E; unfold eb_insert, eb_delete, eb_replace in E; apply bind_ok in E; destruct E as (b1 & E1 & E);
      destruct (advance_last _ _ _ E1) as [_ L].
    - injection E as <-. exact L.
    - apply bind_ok in E. destruct E as (l & _ & E). injection E as <-. exact L.
    - apply bind_ok in E. destruct E as (l & _ & E). injection E as <-. exact L.
  Qed.

  Lemma build_edit32_ok : forall s cs, length s < M -> Forall call_fits cs -> build_edit32 m s cs = build_edit (as_text s) cs.
  Proof.
    intros s cs S F. unfold build_edit32, build_edit, eb_new. rewrite as_text32_ok by exact S. cbn [bind]. rewrite text_len32_ok by apply as_text_wf.
    unfold text_len. cbn [as_text trange rstart rend]. rewrite usub_le by lia. cbn [bind].
    assert (G : forall cs b, Forall call_fits cs -> eb_text_len b = length s ->
      (b' <- fold_res (run_call32 m) b cs ;; b'' <- advance_to32 m b' (eb_text_len b') ;; Ok (segments b'')) = (b' <- run_calls b cs ;; eb_build b')).
    { clear cs F. induction cs as [|c cs IH]; intros b F L; cbn [fold_res run_calls].
      - cbn [bind]. unfold eb_build. rewrite advance_to32_ok by lia. reflexivity.
      - inversion F as [|? ? F1 F2]; subst. rewrite run_call32_ok by exact F1. destruct (run_call b c) as [b'| |] eqn:E; try reflexivity. cbn [bind].
        apply IH; [exact F2|]. rewrite (run_call_len _ _ _ E). exact L. }
    apply G; [exact F|]. cbn [eb_text_len]. lia.
  Qed.

  (** ** The tree builder *)
  Definition leaf_len (c : tb_call) : nat := match c with CLeaf _ n => n | _ => 0 end.

  Lemma update_current_keeps : forall b f b', update_current b f = Ok b' -> tb_pos b' = tb_pos b /\ length (tb_nodes b') = length (tb_nodes b).
  Proof.
    intros b f b' E. unfold update_current in E. apply bind_ok in E. destruct E as (i & _ & E). apply bind_ok in E. destruct E as (d & _ & E).
    apply bind_ok in E. destruct E as (d' & _ & E). injection E as <-. cbn. rewrite set_nth_length. auto.
  Qed.

  Lemma push_child_keeps : forall b ch b' id, push_child b ch = Ok (b', id) -> tb_pos b' = tb_pos b /\ length (tb_nodes b') = S (length (tb_nodes b)).
  Proof.
    intros b ch b' id E. unfold push_child, new_node in E. apply bind_ok in E. destruct E as (i & _ & E).
    apply bind_ok in E. destruct E as (b2 & E2 & E). injection E as <- _. destruct (update_current_keeps _ _ _ E2) as [A B]. cbn in A, B.
    rewrite app_length in B. cbn in B. split; [exact A|lia].
  Qed.

  Lemma add_len_keeps : forall b id b', add_len b id = Ok b' -> tb_pos b' = tb_pos b /\ length (tb_nodes b') = length (tb_nodes b).
  Proof. intros b id b' E. unfold add_len in E. apply bind_ok in E. destruct E as (c & _ & E). exact (update_current_keeps _ _ _ E). Qed.

  Lemma tb_step_keeps : forall b c b', tb_step b c = Ok b' -> tb_pos b' = tb_pos b + leaf_len c /\ length (tb_nodes b') <= S (length (tb_nodes b)).
  Proof.
    intros b [ty n|ty|] b' E; cbn [tb_step leaf_len] in *.
    - unfold tb_leaf in E. rewrite from_len_ok in E. cbn [bind] in E. apply bind_ok in E. destruct E as ([b2 id] & E2 & E).
      destruct (push_child_keeps _ _ _ _ E2) as [A B]. destruct (add_len_keeps _ _ _ E) as [C D]. cbn in A, B. lia.
    - unfold tb_start in E. rewrite from_len_ok in E. cbn [bind] in E. apply bind_ok in E. destruct E as ([b2 id] & E2 & E). injection E as <-. cbn.
      destruct (tb_stack b).
      + injection E2 as <- <-. cbn. rewrite app_length. cbn. lia.
      + destruct (push_child_keeps _ _ _ _ E2) as [A B]. lia.
    - unfold tb_finish in E. destruct (tb_stack b) as [|id rest]; [discriminate|]. destruct rest as [|x rest].
      + injection E as <-. cbn. lia.
      + destruct (add_len_keeps _ _ _ E) as [C D]. cbn in C, D. lia.
  Qed.

  Lemma push_child32_ok : forall b ch, length (tb_nodes b) < M -> push_child32 b ch = push_child b ch.
  Proof. intros b ch H. unfold push_child32, push_child, new_node32, new_node. rewrite as_u32_small by exact H. reflexivity. Qed.

  Lemma tb_step32_ok : forall b c, length (tb_nodes b) < M -> tb_pos b + leaf_len c < M -> tb_step32 m b c = tb_step b c.
  Proof.
    intros b [ty n|ty|] H P; cbn [tb_step32 tb_step leaf_len] in *; [| |reflexivity].
    - unfold tb_leaf32, tb_leaf. rewrite from_len32_ok, from_len_ok, wadd_ok by exact P. cbn [bind]. rewrite push_child32_ok by exact H. reflexivity.
    - unfold tb_start32, tb_start. rewrite from_len32_ok, from_len_ok by exact P. cbn [bind]. rewrite push_child32_ok by exact H.
      unfold new_node32, new_node. rewrite as_u32_small by exact H. reflexivity.
  Qed.

  Lemma tb_run32_ok : forall cs b, length (tb_nodes b) + length cs <= M -> tb_pos b + sum (map leaf_len cs) < M -> fold_res (tb_step32 m) b cs = tb_run b cs.
  Proof.
    induction cs as [|c cs IH]; intros b H P; [reflexivity|]. unfold tb_run in *. cbn [fold_res]. cbn [length map sum fold_right] in *.
    rewrite tb_step32_ok by lia. destruct (tb_step b c) as [b'| |] eqn:E; try reflexivity. cbn [bind]. destruct (tb_step_keeps _ _ _ E) as [A B].
    apply IH; [lia|]. unfold sum. lia.
  Qed.

  Lemma tb_build32_ok : forall cs, length cs <= M -> sum (map leaf_len cs) < M -> tb_build32 m cs = tb_build cs.
  Proof. intros cs H P. unfold tb_build32, tb_build. rewrite tb_run32_ok by (cbn; lia). reflexivity. Qed.

  (** ** Lexing *)
  Lemma lexer32_ok : forall lx s, tk_len (lx s) < M -> lexer32 lx s = lx s.
  Proof. intros lx s H. unfold lexer32. rewrite as_u32_small by exact H. destruct (lx s). reflexivity. Qed.

  Lemma step32_ok : forall lx s x, length s < M -> step lx s = Ok x -> step (lexer32 lx) s = Ok x.
  Proof.
    intros lx s x S E. unfold step in *. destruct (tk_len (lx s) <=? length s) eqn:L; [|discriminate]. apply Nat.leb_le in L.
    rewrite lexer32_ok by lia. rewrite (proj2 (Nat.leb_le _ _) L). exact E.
  Qed.

  Lemma step_rest : forall lx s t rest, step lx s = Ok (t, rest) -> length rest <= length s.
  Proof.
    intros lx s t rest E. unfold step in E. apply guard_ok in E. destruct E as [_ E]. injection E as <- <-. rewrite skipn_length. lia.
  Qed.

  Lemma lex_loop32_ok : forall lx fuel s ts, length s < M -> lex_loop fuel lx s = Ok ts -> lex_loop fuel (lexer32 lx) s = Ok ts.
  Proof.
    intros lx. induction fuel as [|k IH]; intros s ts L E; destruct s as [|b s]; try exact E; cbn [lex_loop] in *.
    apply bind_ok in E. destruct E as ([t rest] & E1 & E). apply bind_ok in E. destruct E as (us & E2 & E).
    rewrite (step32_ok _ _ _ L E1). cbn [bind]. rewrite (IH rest us); [exact E| |exact E2]. apply step_rest in E1. lia.
  Qed.

  Lemma lex_up_to_mono : forall lx p fuel txt new nl txt' new' nl', lex_up_to fuel lx p txt new nl = Ok (txt', new', nl') -> nl <= nl' /\ length txt' <= length txt.
  Proof.
    intros lx p. induction fuel as [|k IH]; intros txt new nl txt' new' nl' E; cbn [lex_up_to] in E; destruct (nl <? p); try discriminate; try (injection E as <- <- <-; lia).
    apply bind_ok in E. destruct E as ([t rest] & E1 & E). apply IH in E. apply step_rest in E1. lia.
  Qed.

  Lemma lex_up_to32_ok : forall lx p fuel txt new nl txt' new' nl', length txt < M -> nl' < M ->
    lex_up_to fuel lx p txt new nl = Ok (txt', new', nl') -> lex_up_to32 m fuel (lexer32 lx) p txt new nl = Ok (txt', new', nl').
  Proof.
    intros lx p. induction fuel as [|k IH]; intros txt new nl txt' new' nl' L B E; cbn [lex_up_to lex_up_to32] in *; destruct (nl <? p); try discriminate; try exact E.
    apply bind_ok in E. destruct E as ([t rest] & E1 & E). rewrite (step32_ok _ _ _ L E1). cbn [bind].
    pose proof (lex_up_to_mono _ _ _ _ _ _ _ _ _ E) as [Q _]. rewrite wadd_ok by lia. cbn [bind]. apply step_rest in E1. apply IH; [lia|exact B|exact E].
  Qed.

  Lemma skip_old_sum : forall p old ol old' ol', skip_old p old ol = Ok (old', ol') -> ol' + lens old' = ol + lens old.
  Proof.
    intros p. induction old as [|t r IH]; intros ol old' ol' E; cbn [skip_old] in E; destruct (ol <? p); try discriminate; try (injection E as <- <-; reflexivity).
    apply IH in E. rewrite lens_cons. lia.
  Qed.

  Lemma skip_old32_ok : forall p old ol, ol + lens old < M -> skip_old32 m p old ol = skip_old p old ol.
  Proof.
    intros p. induction old as [|t r IH]; intros ol L; cbn [skip_old skip_old32]; [reflexivity|]. destruct (ol <? p); [|reflexivity].
    rewrite lens_cons in L. rewrite wadd_ok by lia. cbn [bind]. apply IH. lia.
  Qed.

  Lemma reuse_sum : forall e old ol new nl ru old' ol' new' nl' ru', reuse e old ol new nl ru = (old', ol', new', nl', ru') ->
    ol' + lens old' = ol + lens old /\ nl <= nl' /\ ru <= ru'.
  Proof.
    intros e. induction old as [|t r IH]; intros ol new nl ru old' ol' new' nl' ru' E; cbn [reuse] in E.
    - injection E as <- <- <- <- <-. lia.
    - rewrite lens_cons. destruct (e <=? ol + tk_len t).
      + injection E as <- <- <- <- <-. lia.
      + apply IH in E. lia.
  Qed.

  Lemma reuse32_ok : forall e old ol new nl ru old' ol' new' nl' ru', ol + lens old < M -> nl' < M -> ru' < M ->
    reuse e old ol new nl ru = (old', ol', new', nl', ru') -> reuse32 m e old ol new nl ru = Ok (old', ol', new', nl', ru').
  Proof.
    intros e. induction old as [|t r IH]; intros ol new nl ru old' ol' new' nl' ru' L N U E; cbn [reuse reuse32] in *.
    - rewrite E. reflexivity.
    - rewrite lens_cons in L. rewrite wadd_ok by lia. cbn [bind]. destruct (e <=? ol + tk_len t); [rewrite E; reflexivity|].
      destruct (reuse_sum _ _ _ _ _ _ _ _ _ _ _ E) as (_ & A & B). rewrite wadd_ok by lia. cbn [bind]. rewrite wadd_ok by lia. cbn [bind]. apply IH; [lia|exact N|exact U|exact E].
  Qed.

  Lemma copy_loop_sum : forall lx r fuel txt s s', copy_loop fuel lx r txt s = Ok s' ->
    rx_old_len s' + lens (rx_old s') = rx_old_len s + lens (rx_old s) /\ rx_new_len s <= rx_new_len s' /\ rx_reused s <= rx_reused s' /\ rx_point s' = rx_point s.
  Proof.
    intros lx r. induction fuel as [|k IH]; intros txt s s' E; cbn [copy_loop] in E; [discriminate|].
    apply bind_ok in E. destruct E as (nc & _ & E). apply bind_ok in E. destruct E as (oc & _ & E). apply bind_ok in E. destruct E as (len & _ & E).
    destruct ((len <=? nc) || (len <=? oc)); [injection E as <-; lia|]. destruct (Nat.compare nc oc).
    - destruct (reuse (rend r) (rx_old s) (rx_old_len s) (rx_new s) (rx_new_len s) (rx_reused s)) as [[[[old ol] new] nl] ru] eqn:R.
      apply IH in E. cbn [rx_old rx_old_len rx_new rx_new_len rx_point rx_reused] in E. apply reuse_sum in R. lia.
    - apply bind_ok in E. destruct E as ([t rest] & _ & E). apply IH in E. cbn [rx_old rx_old_len rx_new rx_new_len rx_point rx_reused] in E. lia.
    - destruct (rx_old s) as [|t rest]; [discriminate|]. apply IH in E. cbn [rx_old rx_old_len rx_new rx_new_len rx_point rx_reused] in E. rewrite lens_cons. lia.
  Qed.

  Lemma copy_loop32_ok : forall lx r fuel txt s s', length txt < M -> rx_old_len s + lens (rx_old s) < M -> rx_new_len s' < M -> rx_reused s' < M ->
    copy_loop fuel lx r txt s = Ok s' -> copy_loop32 m fuel (lexer32 lx) r txt s = Ok s'.
  Proof.
    intros lx r. induction fuel as [|k IH]; intros txt s s' T L N U E; cbn [copy_loop copy_loop32] in *; [discriminate|].
    apply bind_ok in E. destruct E as (nc & E1 & E). apply bind_ok in E. destruct E as (oc & E2 & E). apply bind_ok in E. destruct E as (len & E3 & E).
    apply usub_ok in E1. destruct E1 as [E1 ->]. apply usub_ok in E2. destruct E2 as [E2 ->]. unfold range_len in E3. apply usub_ok in E3. destruct E3 as [E3 ->].
    rewrite wsub_ok by exact E1. cbn [bind]. rewrite wsub_ok by exact E2. cbn [bind]. unfold range_len32. rewrite wsub_ok by exact E3. cbn [bind].
    destruct (_ || _); [exact E|]. destruct (Nat.compare _ _).
    - destruct (reuse (rend r) (rx_old s) (rx_old_len s) (rx_new s) (rx_new_len s) (rx_reused s)) as [[[[old ol] new] nl] ru] eqn:R.
      destruct (copy_loop_sum _ _ _ _ _ _ E) as (A & B & C & _). cbn [rx_old rx_old_len rx_new rx_new_len rx_point rx_reused] in *.
      destruct (reuse_sum _ _ _ _ _ _ _ _ _ _ _ R) as (A' & _). rewrite (reuse32_ok _ _ _ _ _ _ old ol new nl ru L) by (lia || exact R).
      cbn [bind]. apply IH; cbn [rx_old rx_old_len rx_new rx_new_len rx_point rx_reused]; try assumption; lia.
    - apply bind_ok in E. destruct E as ([t rest] & E4 & E). rewrite (step32_ok _ _ _ T E4). cbn [bind].
      destruct (copy_loop_sum _ _ _ _ _ _ E) as (A & B & C & _). cbn [rx_old rx_old_len rx_new rx_new_len rx_point rx_reused] in *.
      rewrite wadd_ok by lia. cbn [bind]. apply step_rest in E4. apply IH; cbn [rx_old rx_old_len rx_new rx_new_len rx_point rx_reused]; try assumption; lia.
    - destruct (rx_old s) as [|t rest] eqn:O; [discriminate|]. rewrite lens_cons in L. rewrite wadd_ok by lia. cbn [bind].
      apply IH; cbn [rx_old rx_old_len rx_new rx_new_len rx_point rx_reused]; try assumption; lia.
  Qed.

  Lemma relex_op_sum : forall fuel lx new s op s', relex_op fuel lx new s op = Ok s' ->
    rx_old_len s' + lens (rx_old s') = rx_old_len s + lens (rx_old s) /\ rx_new_len s <= rx_new_len s' /\ rx_reused s <= rx_reused s' /\ rx_point s <= rx_point s'.
  Proof.
    intros fuel lx new s [r|t] s' E; cbn [relex_op] in E.
    - apply bind_ok in E. destruct E as (txt & _ & E). apply bind_ok in E. destruct E as ([[txt1 nw] nl] & E1 & E).
      apply bind_ok in E. destruct E as ([old ol] & E2 & E). apply bind_ok in E. destruct E as (s2 & E3 & E). apply bind_ok in E. destruct E as (len & _ & E).
      injection E as <-. cbn [rx_old rx_old_len rx_new rx_new_len rx_point rx_reused]. apply lex_up_to_mono in E1. apply skip_old_sum in E2.
      apply copy_loop_sum in E3. cbn [rx_old rx_old_len rx_new rx_new_len rx_point rx_reused] in E3. lia.
    - injection E as <-. cbn [rx_old rx_old_len rx_new rx_new_len rx_point rx_reused]. lia.
  Qed.

  Lemma relex_op32_ok : forall fuel lx new s op s', length new < M -> rx_old_len s + lens (rx_old s) < M -> rx_new_len s' < M -> rx_reused s' < M -> rx_point s' < M ->
    relex_op fuel lx new s op = Ok s' -> relex_op32 m fuel (lexer32 lx) new s op = Ok s'.
  Proof.
    intros fuel lx new s [r|t] s' T L N U P E; cbn [relex_op relex_op32] in *.
    - apply bind_ok in E. destruct E as (txt & E0 & E). apply bind_ok in E. destruct E as ([[txt1 nw] nl] & E1 & E).
      apply bind_ok in E. destruct E as ([old ol] & E2 & E). apply bind_ok in E. destruct E as (s2 & E3 & E). apply bind_ok in E. destruct E as (len & E4 & E).
      injection E as <-. cbn [rx_old rx_old_len rx_new rx_new_len rx_point rx_reused] in *.
      pose proof (copy_loop_sum _ _ _ _ _ _ E3) as (A & B & C & D). cbn [rx_old rx_old_len rx_new rx_new_len rx_point rx_reused] in A, B, C, D.
      pose proof (skip_old_sum _ _ _ _ _ E2) as A2. pose proof (lex_up_to_mono _ _ _ _ _ _ _ _ _ E1) as [_ LT].
      rewrite E0. cbn [bind]. assert (TL : length txt < M). { unfold suffix in E0. apply guard_ok in E0. destruct E0 as [_ E0]. injection E0 as <-. rewrite skipn_length. lia. }
      rewrite (lex_up_to32_ok _ _ _ _ _ _ txt1 nw nl) by (lia || exact E1). cbn [bind]. rewrite skip_old32_ok by exact L. rewrite E2. cbn [bind].
      rewrite (copy_loop32_ok _ _ _ _ _ s2) by (cbn [rx_old rx_old_len]; lia || exact E3). cbn [bind].
      unfold range_len in E4. apply usub_ok in E4. destruct E4 as [E4 ->]. unfold range_len32. rewrite wsub_ok by exact E4. cbn [bind].
      rewrite wadd_ok by lia. reflexivity.
    - injection E as <-. cbn [rx_old rx_old_len rx_new rx_new_len rx_point rx_reused] in *. rewrite as_text32_ok by lia. cbn [bind].
      rewrite text_len32_ok by apply as_text_wf. unfold text_len. cbn [as_text trange rstart rend]. rewrite usub_le by lia. cbn [bind].
      rewrite wadd_ok by lia. cbn [bind]. rewrite Nat.sub_0_r. reflexivity.
  Qed.

  Definition op_len (op : edit_op) : nat := match op with Copy r => rend r - rstart r | Insert t => length t end.

  Lemma relex_op_point : forall fuel lx new s op s', relex_op fuel lx new s op = Ok s' -> rx_point s' = rx_point s + op_len op.
  Proof.
    intros fuel lx new s [r|t] s' E; cbn [relex_op op_len] in *.
    - apply bind_ok in E. destruct E as (txt & E0 & E). apply bind_ok in E. destruct E as ([[txt1 nw] nl] & E1 & E).
      apply bind_ok in E. destruct E as ([old ol] & E2 & E). apply bind_ok in E. destruct E as (s2 & E3 & E). apply bind_ok in E. destruct E as (len & E4 & E).
      injection E as <-. cbn [rx_point]. apply copy_loop_sum in E3. cbn [rx_point] in E3. unfold range_len in E4. apply usub_ok in E4. lia.
    - injection E as <-. reflexivity.
  Qed.

  Lemma relex_ops32_ok : forall fuel lx new ops s s', length new < M -> rx_old_len s + lens (rx_old s) < M -> rx_new_len s' < M -> rx_reused s' < M ->
    rx_point s + sum (map op_len ops) < M ->
    fold_res (relex_op fuel lx new) s ops = Ok s' -> fold_res (relex_op32 m fuel (lexer32 lx) new) s ops = Ok s'
      /\ rx_new_len s <= rx_new_len s' /\ rx_reused s <= rx_reused s'.
  Proof.
    intros fuel lx new. induction ops as [|op ops IH]; intros s s' T L N U P E; cbn [fold_res] in *; [injection E as <-; auto|].
    apply bind_ok in E. destruct E as (s1 & E1 & E). cbn [map sum fold_right] in P. pose proof (relex_op_point _ _ _ _ _ _ E1) as PT.
    destruct (relex_op_sum _ _ _ _ _ _ E1) as (A & B & C & D).
    destruct (IH s1 s') as (F & G & H); auto; try (unfold sum; lia).
    rewrite (relex_op32_ok _ _ _ _ _ s1) by (lia || exact E1). cbn [bind]. repeat split; [exact F|lia|lia].
  Qed.

  Lemma result_length : forall old ops, Forall (valid_op old) ops -> length (result_of old ops) = sum (map op_len ops).
  Proof.
    intros old ops V. induction V as [|op ops H V IH]; [reflexivity|]. unfold result_of in *. cbn [flat_map map sum fold_right]. rewrite app_length, IH.
    f_equal. destruct op as [r|t]; cbn [op_bytes op_len valid_op] in *; [apply sub_length; lia|reflexivity].
  Qed.

  Lemma relex32_ok : forall lx old old_toks ops new, progressing lx -> lens old_toks = length old -> length old < M -> length new < M ->
    apply ops (as_text old) = Ok new -> relex32 m (lexer32 lx) old_toks ops new = relex lx old_toks ops new.
  Proof.
    intros lx old old_toks ops new PR LO OM NM AP. destruct (apply_result _ _ _ AP) as [V ->].
    destruct (relex_ok lx old old_toks ops PR LO V) as (ts & region & E & _). rewrite E. revert E. unfold relex, relex32.
    destruct (existsb _ old_toks); intros E.
    - apply bind_ok in E. destruct E as (us & E1 & E). unfold lex in *. rewrite (lex_loop32_ok _ _ _ us NM E1). exact E.
    - apply bind_ok in E. destruct E as (s & E1 & E). apply bind_ok in E. destruct E as (txt & E2 & E). apply bind_ok in E. destruct E as (rest & E3 & E).
      apply bind_ok in E. destruct E as (rg & E4 & E). apply usub_ok in E4. destruct E4 as [E4 ->].
      pose proof E2 as E2'. unfold suffix in E2'. apply guard_ok in E2'. destruct E2' as [E5 E6]. apply Nat.leb_le in E5. injection E6 as E6.
      destruct (relex_ops32_ok (length (result_of old ops) + length old_toks + 2) lx (result_of old ops) ops (mkRx old_toks 0 [] 0 0 0) s) as [E7 _];
        [exact NM|cbn [rx_old rx_old_len]; lia|lia|lia|cbn [rx_point]; rewrite <- (result_length old) by exact V; exact NM|exact E1|].
      rewrite E7. cbn [bind]. rewrite E2. cbn [bind]. rewrite (lex_loop32_ok _ _ _ rest); [|rewrite <- E6, skipn_length; lia|exact E3]. cbn [bind].
      rewrite as_u32_small by exact NM. rewrite wsub_ok by exact E4. cbn [bind]. exact E.
  Qed.

  Lemma lex32_ok : forall lx s, progressing lx -> length s < M -> lex (lexer32 lx) s = lex lx s.
  Proof.
    intros lx s P H. destruct (lex_ok lx s P) as (ts & E & _). rewrite E. apply (lex_loop32_ok lx (length s) s ts H E).
  Qed.
End Words.

(** ** The Rust editor *)
Section RustWords.
  Variables (m : build) (f : file) (T : tree).
  Hypothesis W : wf_file f T.
  Hypothesis Sz : length (f_text f) + 3 < M.

  Lemma beyond : forall o, length (f_text f) < o -> find_leaf_at_offset (f_nodes f) root o = Panic.
  Proof.
    intros o H. destruct W as [ST L]. apply (find_leaf_outside (f_nodes f) T ST o root 0 None T (At_root T)). lia.
  Qed.

  Lemma wsub_cases : forall a b, b <= a /\ wsub m a b = Ok (a - b) /\ usub a b = Ok (a - b)
    \/ a < b /\ usub a b = Panic /\ (wsub m a b = Panic \/ wsub m a b = Ok (a + M - b)).
  Proof.
    intros a b. unfold wsub, usub. destruct (b <=? a) eqn:E; [apply Nat.leb_le in E; auto|apply Nat.leb_gt in E].
    right. split; [exact E|]. split; [reflexivity|]. destruct m; auto.
  Qed.

  Lemma after_space_typed32_ok : forall o, after_space_typed32 m f o = after_space_typed f o.
  Proof.
    intros o. unfold after_space_typed32. destruct (wsub_cases o 1) as [(H & -> & _)|(H & U & [-> | ->])].
    - cbn [bind]. f_equal. lia.
    - cbn [bind]. unfold after_space_typed. rewrite U. reflexivity.
    - cbn [bind]. unfold after_space_typed. rewrite U. rewrite usub_le by lia. cbn [bind]. rewrite beyond by lia. reflexivity.
  Qed.

  Lemma breadcrumbs32_ok : forall o, breadcrumbs32 m f o = breadcrumbs f o.
  Proof.
    intros o. unfold breadcrumbs32. destruct (wsub_cases o 1) as [(H & -> & _)|(H & U & [-> | ->])].
    - cbn [bind]. f_equal. lia.
    - cbn [bind]. unfold breadcrumbs. rewrite U. reflexivity.
    - cbn [bind]. unfold breadcrumbs. rewrite U. rewrite usub_le by lia. cbn [bind]. rewrite beyond by lia. reflexivity.
  Qed.

  Lemma expand32_ok : forall o, expand32 m f o = expand f o.
  Proof.
    intros o. unfold expand32, expand. destruct (wsub_cases o 2) as [(H & -> & ->)|(H & -> & [-> | ->])]; [|reflexivity|].
    2: { cbn [bind]. rewrite beyond by lia. reflexivity. }
    cbn [bind]. destruct (find_leaf_at_offset (f_nodes f) root (o - 2)) as [l| |]; try reflexivity. cbn [bind].
    destruct (left_biased l) as [leaf|]; [|reflexivity]. destruct (ast_ancestor (f_nodes f) (is_ty RS_EXPR_STMT) leaf) as [a| |]; try reflexivity. cbn [bind].
    destruct a as [stmt|]; [|reflexivity]. destruct (node_range (f_nodes f) stmt) as [r| |]; try reflexivity. cbn [bind].
    rewrite (as_text32_ok m (f_text f)) by lia.
    destruct (wsub_cases (rend r) 3) as [(H3 & -> & ->)|(H3 & -> & [-> | ->])]; [|reflexivity|].
    - cbn [bind]. destruct (from_to_inv' (rstart r) (rend r - 3)) as [[-> P]| ->]; [|reflexivity]. cbn [bind].
      rewrite slice32_ok; [reflexivity|apply as_text_wf|cbn; lia|right; exact P].
    - cbn [bind]. destruct (from_to_inv' (rstart r) (rend r + M - 3)) as [[-> P]| ->]; [|reflexivity]. cbn [bind].
      rewrite slice32_ok; [|apply as_text_wf|cbn; lia|right; exact P].
      unfold slice, text_len. cbn [as_text trange rstart rend]. rewrite usub_le by lia. cbn [bind].
      rewrite (proj2 (Nat.leb_gt _ _)) by lia. reflexivity.
  Qed.
End RustWords.
