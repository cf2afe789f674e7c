(** Properties C17-C19: lexing and incremental relexing. *)
From Coq Require Import List Arith Bool Lia.
From Verif Require Import Base BaseFacts TextModel EditModel LexModel LexSpec LexProofs.
Import ListNotations.

(** A sample lexer: runs of digits (48..57) are type 2, any other byte is a token of type 1. *)
Definition is_digit (b : nat) : bool := (48 <=? b) && (b <=? 57).
Fixpoint run (p : nat -> bool) (l : bytes) : nat :=
  match l with [] => 0 | b :: r => if p b then S (run p r) else 0 end.
Definition digit_lexer : lexer := fun txt =>
  match run is_digit txt with 0 => mkTok 1 1 | S n => mkTok 2 (S n) end.

(** A sample lexer with long lookahead: "abbbc" is one token (type 2), otherwise single bytes (type 1). *)
Definition greedy_lexer : lexer := fun txt =>
  if is_prefix [97; 98; 98; 98; 99] txt then mkTok 2 5 else mkTok 1 1.

Lemma run_le : forall p l, run p l <= length l.
Proof. intros p. induction l as [|b l IH]; cbn; [auto|]. destruct (p b); lia. Qed.

Example digit_lexer_progress : progressing digit_lexer.
Proof.
  intros txt NE. unfold digit_lexer. pose proof (run_le is_digit txt).
  destruct txt; [congruence|]. destruct (run is_digit (n :: txt)); cbn [tk_len length] in *; lia.
Qed.

Lemma run_stop : forall p u v, run p u < length u -> firstn (S (run p u)) v = firstn (S (run p u)) u -> run p v = run p u.
Proof.
  intros p. induction u as [|b u IH]; intros v L E; cbn [length run] in *; [lia|].
  destruct (p b) eqn:Pb.
  - destruct v as [|c v]; cbn [firstn] in E; [discriminate|]. injection E as Ec E. subst c. cbn [run]. rewrite Pb. f_equal.
    apply IH; auto. lia.
  - destruct v as [|c v]; cbn [firstn] in E; [discriminate|]. injection E as Ec. subst c. cbn [run]. rewrite Pb. reflexivity.
Qed.

Example digit_lexer_lookahead : one_byte_lookahead digit_lexer.
Proof.
  intros u v t. unfold t, digit_lexer. intros _ L E. destruct (run is_digit u) eqn:R; cbn [tk_len] in *.
  - destruct u as [|a u]; [cbn in L; lia|]. destruct v as [|b v]; [discriminate|].
    cbn [firstn] in E. injection E as Ea _. subst b. cbn [run] in *. destruct (is_digit a); [discriminate|]. reflexivity.
  - rewrite (run_stop is_digit u v); [rewrite R; reflexivity|rewrite R; auto|rewrite R; auto].
Qed.

(** C17: lexing succeeds, there is exactly one way to read tokens from the left, and the tokens tile the text. *)
Theorem C17_lex : forall lx txt, progressing lx -> exists ts, lex lx txt = Ok ts /\ tokenizes lx txt ts.
Proof. exact lex_ok. Qed.
Print Assumptions C17_lex.

Theorem C17_unique : forall lx txt ts us, tokenizes lx txt ts -> tokenizes lx txt us -> ts = us.
Proof. intros. eapply tokenizes_fun; eauto. Qed.
Print Assumptions C17_unique.

Theorem C17_tiles : forall lx txt ts, progressing lx -> lex lx txt = Ok ts ->
  sum (map tk_len ts) = length txt /\ concat (cut txt ts) = txt /\ map (@length nat) (cut txt ts) = map tk_len ts
  /\ Forall (fun t => 0 < tk_len t) ts.
Proof.
  intros lx txt ts P E. destruct (lex_ok lx txt P) as (us & E' & T). rewrite E in E'. injection E' as <-.
  destruct (tokenizes_cut lx P txt ts T) as (A & B & C). pose proof (tokenizes_lens lx P txt ts T). auto.
Qed.
Print Assumptions C17_tiles.

(** A lexer that returns an empty token makes the loop run forever, whatever the fuel. *)
Theorem C17_empty_token_hangs : forall lx txt, txt <> [] -> tk_len (lx txt) = 0 ->
  forall fuel, lex_loop fuel lx txt = OutOfFuel.
Proof. exact lex_zero_hangs. Qed.
Print Assumptions C17_empty_token_hangs.

Example C17_ex : lex digit_lexer [48; 49; 97; 50] = Ok [mkTok 2 2; mkTok 1 1; mkTok 2 1].
Proof. reflexivity. Qed.

(** C18: relexing after an edit gives the tokens of the new text. *)
Theorem C18_relex : forall lx old old_toks ops new,
  progressing lx -> one_byte_lookahead lx ->
  lex lx old = Ok old_toks -> apply ops (as_text old) = Ok new ->
  exists region ts, relex lx old_toks ops new = Ok (ts, region) /\ lex lx new = Ok ts.
Proof.
  intros lx old old_toks ops new P One L A. destruct (apply_result _ _ _ A) as [V ->].
  destruct (lex_ok lx old P) as (us & E & T). rewrite L in E. injection E as <-.
  destruct (relex_ok lx old old_toks ops P (tokenizes_lens lx P _ _ T) V) as (ts & region & R & _ & _ & _ & K).
  exists region, ts. split; [exact R|]. destruct (lex_ok lx (result_of old ops) P) as (ws & E & W).
  rewrite E. f_equal. eapply tokenizes_fun; eauto.
Qed.
Print Assumptions C18_relex.

(** "01a2" with "1a" replaced by "7": tokens 01|a|2 become 072; the hypotheses hold for the sample lexer. *)
Example C18_ex :
  apply [Copy (mkRange 0 1); Insert [55]; Copy (mkRange 3 4)] (as_text [48; 49; 97; 50]) = Ok [48; 55; 50] /\
  relex digit_lexer [mkTok 2 2; mkTok 1 1; mkTok 2 1] [Copy (mkRange 0 1); Insert [55]; Copy (mkRange 3 4)] [48; 55; 50]
    = Ok ([mkTok 2 3], 3).
Proof. split; reflexivity. Qed.

Example C18_ex_reuse :
  relex digit_lexer [mkTok 2 2; mkTok 1 1; mkTok 1 1; mkTok 2 1]
    [Copy (mkRange 0 4); Insert [97]; Copy (mkRange 4 5)] [48; 49; 97; 98; 97; 50]
    = Ok ([mkTok 2 2; mkTok 1 1; mkTok 1 1; mkTok 1 1; mkTok 2 1], 3).
Proof. reflexivity. Qed.

(** Without the lookahead proviso the claim is false: "abbbx" -> "abbbc". *)
Theorem C18_long_lookahead_refuted : exists lx old old_toks ops new ts region,
  progressing lx /\ lex lx old = Ok old_toks /\ Forall (fun t => tk_ty t <> ERROR) old_toks
  /\ apply ops (as_text old) = Ok new
  /\ relex lx old_toks ops new = Ok (ts, region) /\ lex lx new <> Ok ts.
Proof.
  exists greedy_lexer, [97; 98; 98; 98; 120], (repeat (mkTok 1 1) 5), [Copy (mkRange 0 4); Insert [99]],
    [97; 98; 98; 98; 99], (repeat (mkTok 1 1) 5), 2.
  repeat split; try reflexivity.
  - unfold greedy_lexer. destruct (is_prefix _ _); cbn; lia.
  - unfold greedy_lexer. destruct (is_prefix _ txt) eqn:E; cbn [tk_len].
    + apply is_prefix_spec in E. destruct E as [r ->]. cbn. lia.
    + destruct txt; [congruence|cbn; lia].
  - cbn. repeat constructor; discriminate.
  - vm_compute. discriminate.
Qed.
Print Assumptions C18_long_lookahead_refuted.

(** C19: whatever the lookahead and wherever the old tokens came from, relexing succeeds, the tokens tile the
    new text, and the reported region is the part not taken from the old tokens (0 if there was an error token,
    although everything is lexed again in that case). *)
Theorem C19_relex_covers : forall lx old old_toks ops new,
  progressing lx -> sum (map tk_len old_toks) = length old -> apply ops (as_text old) = Ok new ->
  exists ts region, relex lx old_toks ops new = Ok (ts, region)
    /\ sum (map tk_len ts) = length new
    /\ (Exists (fun t => tk_ty t = ERROR) old_toks -> region = 0 /\ lex lx new = Ok ts)
    /\ (Forall (fun t => tk_ty t <> ERROR) old_toks ->
        exists kept, subseq kept old_toks /\ subseq kept ts /\ region + sum (map tk_len kept) = length new).
Proof.
  intros lx old old_toks ops new P L A. destruct (apply_result _ _ _ A) as [V ->].
  destruct (relex_ok lx old old_toks ops P L V) as (ts & region & R & S1 & S2 & S3 & _).
  exists ts, region. repeat split; auto.
  - apply S2. auto.
  - destruct (S2 H) as [_ T]. destruct (lex_ok lx (result_of old ops) P) as (ws & E & W).
    rewrite E. f_equal. eapply tokenizes_fun; eauto.
Qed.
Print Assumptions C19_relex_covers.

Example C19_ex :
  progressing greedy_lexer -> exists ts region,
  relex greedy_lexer [mkTok 1 3; mkTok 2 1] [Copy (mkRange 2 4); Insert [97]] [5; 6; 97] = Ok (ts, region)
  /\ sum (map tk_len ts) = 3.
Proof. intros _. do 2 eexists. split; vm_compute; reflexivity. Qed.
