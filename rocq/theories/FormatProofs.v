(** The formatter computes [formatted]. *)
From Coq Require Import List Arith Bool Lia.
From Verif Require Import Base BaseFacts TextModel EditModel TreeModel SearchModel FileEditModel AnalysisModel FormatModel
  TextSpec TreeSpec SearchSpec FileEditSpec EditorSpec IndexSpec AnalysisSpec FormatSpec
  TextProofs TreeProofs SearchProofs TraversalProofs FileEditProofs EditorProofs IndexProofs ViewProofs.
Import ListNotations.

Inductive req : Type := RDel (n : nat) | RRep (n : nat) | RIns (n : nat).
Definition push (e : file_edit) (r : req) : file_edit :=
  match r with
  | RDel n => fe_delete e n
  | RRep n => fe_replace_with_text e n s_space
  | RIns n => fe_insert_text_after e n s_space
  end.

Lemma find_newline : forall s, (match find_sub s_newline s with Some _ => true | None => false end) = existsb (Nat.eqb 10) s.
Proof.
  induction s as [|b s IH]; [reflexivity|]. unfold s_newline in *. cbn [find_sub existsb is_prefix].
  destruct (10 =? b) eqn:E; cbn [andb orb]; [reflexivity|]. rewrite <- IH. destruct (find_sub [10] s); reflexivity.
Qed.

Lemma exists_last_or_nil : forall A (l : list A), l = [] \/ exists l' x, l = l' ++ [x].
Proof. intros A l. induction l as [|x l _] using rev_ind; [left; reflexivity|right; exists l, x; reflexivity]. Qed.

Section Format.
  Variables (f : file) (T : tree).
  Hypothesis WF : wf_file f T.
  Hypothesis CT : char_tree (f_text f) T.
  Notation nodes := (f_nodes f).
  Notation s := (f_text f).

  Definition rs (n : nat) : option nat := match sibling nodes n DRight with Ok o => o | _ => None end.
  Definition ls (n : nat) : option nat := match sibling nodes n DLeft with Ok o => o | _ => None end.
  Definition nl (n : nat) : bool := existsb (Nat.eqb 10) (str f n).
  Definition blank (n : nat) : bool := ty f n =? F_WHITESPACE.

  Definition after (w : nat) (o : option nat) (n : nat) (g : nat -> list req) : list req :=
    match o with Some m => if w =? ty f n then if nl m then [] else g m else [] | None => [] end.
  Definition one (a m : nat) : list req :=
    if blank m then if length (str f m) =? 1 then [] else [RRep m] else [RIns a].
  Definition none (m : nat) : list req := if blank m then [RDel m] else [].
  Definition reqs (n : nat) : list req :=
    after PIPE (rs n) n (fun m => one n m) ++ after PIPE (ls n) n (fun m => one m m) ++
    after L_ANGLE (rs n) n none ++ after R_ANGLE (ls n) n none.

  Lemma sib : forall n, valid f n -> sibling nodes n DRight = Ok (rs n) /\ sibling nodes n DLeft = Ok (ls n) /\
    (forall m, rs n = Some m -> valid f m) /\ (forall m, ls n = Some m -> valid f m).
  Proof.
    intros n V. destruct (par f n) as [q|] eqn:P.
    - destruct (par_in f T WF n q V P) as (VQ & _ & J). apply In_nth_error in J. destruct J as (k & K).
      pose proof (kids_v f q VQ) as KV. destruct (sibling_ok nodes T (proj1 WF) q (kids f q) k n KV K) as (A & B).
      unfold rs, ls. rewrite A, B. split; [reflexivity|]. split; [reflexivity|]. split.
      + intros m E. exact (proj1 (kids_in f T WF _ _ (nth_error_In _ _ E))).
      + intros m E. destruct k; [discriminate E|]. exact (proj1 (kids_in f T WF _ _ (nth_error_In _ _ E))).
    - destruct (valid_at f T WF n V) as (p & q & t & A & E). assert (Q : q = None) by (unfold par, at_node in P; rewrite E in P; exact P). subst q.
      destruct (At_no_parent _ _ _ _ A) as (-> & _).
      unfold rs, ls. rewrite !(sibling_root nodes T (proj1 WF)). split; [reflexivity|]; split; [reflexivity|]; split; intros m X; discriminate X.
  Qed.

  Lemma facts : forall m, valid f m -> exists x, node_text f m = Ok x /\ contains x s_newline = Ok (nl m) /\ text_len x = Ok (length (str f m)).
  Proof.
    intros m V. destruct (valid_at f T WF m V) as (p & q & t & A & E). destruct (node_str f T WF CT m p q t A) as (x & X & S1).
    exists x. split; [exact X|]. assert (SX : sub p (p + tlen t) s = str f m) by (unfold str, rng, at_node; rewrite E; reflexivity).
    split.
    - unfold contains. rewrite S1. cbn [bind]. rewrite SX. f_equal. apply find_newline.
    - pose proof A as G. apply AtG_At in G. apply AtG_bounds in G. unfold node_text in X. rewrite (range_ok _ _ (proj1 WF) _ _ _ _ A) in X. cbn [bind] in X.
      destruct (slice_ok (as_text s) (mkRange p (p + tlen t)) (as_text_wf _)) as (x' & E' & W & _ & _ & B).
      { unfold proper. cbn. lia. }
      { rewrite as_text_bytes. cbn. rewrite <- (proj2 WF). lia. }
      rewrite E' in X. injection X as ->. rewrite (text_len_ok _ W), B, as_text_bytes. cbn [rstart rend]. rewrite SX. reflexivity.
  Qed.

  Lemma apply_ok : forall n, valid f n -> forall e, spacer_apply f fall_spacing F_WHITESPACE n e = Ok (fold_left push (reqs n) e).
  Proof.
    intros n V. destruct (sib n V) as (R & L & VR & VL).
    assert (A : forall w sp e, apply_rule f F_WHITESPACE n e (After w sp)
        = Ok (fold_left push (after w (rs n) n (fun m => match sp with OneSpace => one n m | NoSpace => none m end)) e)).
    { intros w sp e. unfold apply_rule. rewrite R, L, (ty_v f n V). cbn [bind]. unfold after. destruct (rs n) as [m|] eqn:E; [|reflexivity].
      destruct (w =? ty f n); [|reflexivity]. destruct (facts m (VR m eq_refl)) as (x & -> & CN & TL). cbn [bind]. rewrite CN. cbn [bind].
      destruct (nl m); [reflexivity|]. rewrite (ty_v f m (VR m eq_refl)). cbn [bind]. unfold one, none, blank.
      destruct sp, (ty f m =? F_WHITESPACE); try reflexivity. rewrite TL. cbn [bind]. destruct (length (str f m) =? 1); reflexivity. }
    assert (B : forall w sp e, apply_rule f F_WHITESPACE n e (Before w sp)
        = Ok (fold_left push (after w (ls n) n (fun m => match sp with OneSpace => one m m | NoSpace => none m end)) e)).
    { intros w sp e. unfold apply_rule. rewrite R, L, (ty_v f n V). cbn [bind]. unfold after. destruct (ls n) as [m|] eqn:E; [|reflexivity].
      destruct (w =? ty f n); [|reflexivity]. destruct (facts m (VL m eq_refl)) as (x & -> & CN & TL). cbn [bind]. rewrite CN. cbn [bind].
      destruct (nl m); [reflexivity|]. rewrite (ty_v f m (VL m eq_refl)). cbn [bind]. unfold one, none, blank.
      destruct sp, (ty f m =? F_WHITESPACE); try reflexivity. rewrite TL. cbn [bind]. destruct (length (str f m) =? 1); reflexivity. }
    intros e. unfold spacer_apply, fall_spacing, reqs. cbn [fold_res]. rewrite A. cbn [bind]. rewrite B. cbn [bind]. rewrite A. cbn [bind]. rewrite B. cbn [bind].
    rewrite !fold_left_app. reflexivity.
  Qed.

  Lemma reformat_ok : forall t i p q fuel e, At T i p q t -> tsize t <= fuel ->
    reformat_node fuel f fall_spacing F_WHITESPACE i e = Ok (fold_left push (flat_map reqs (seq i (tsize t))) e).
  Proof.
    intros t. induction t as [ty n|ty ts F] using tree_ind'; intros i p q fuel e A L; (destruct fuel as [|fuel]; [pose proof (tsize_pos (Leaf ty 0)); cbn [tsize] in L; lia|]);
      cbn [reformat_node]; rewrite (apply_ok i (at_valid f T WF _ _ _ _ A)); cbn [bind]; rewrite (children_ok _ _ (proj1 WF) _ _ _ _ A); cbn [bind t_children].
    - cbn [child_ids fold_res tsize seq flat_map]. rewrite app_nil_r. reflexivity.
    - cbn [tsize] in L |- *. fold (tsizes ts) in L |- *. cbn [seq flat_map]. rewrite fold_left_app. generalize (fold_left push (reqs i) e) as e1.
      assert (G : forall post pre e1, ts = pre ++ post -> fold_res (fun e c => reformat_node fuel f fall_spacing F_WHITESPACE c e) e1 (child_ids (S i + tsizes pre) post)
        = Ok (fold_left push (flat_map reqs (seq (S i + tsizes pre) (tsizes post))) e1)).
      { induction post as [|c post IH]; intros pre e1 E; [reflexivity|]. cbn [child_ids fold_res]. subst ts.
        assert (FC : forall i p q fuel e, At T i p q c -> tsize c <= fuel ->
          reformat_node fuel f fall_spacing F_WHITESPACE i e = Ok (fold_left push (flat_map reqs (seq i (tsize c))) e)).
        { apply Forall_app in F. destruct F as (_ & F). inversion F; assumption. }
        rewrite (FC _ _ _ fuel e1 (At_child _ _ _ _ _ _ _ _ A)). 2:{ rewrite tsizes_app, tsizes_cons in L. lia. }
        cbn [bind]. specialize (IH (pre ++ [c]) (fold_left push (flat_map reqs (seq (S i + tsizes pre) (tsize c))) e1)).
        rewrite tsizes_app, tsizes_cons in IH. change (tsizes []) with 0 in IH. rewrite Nat.add_0_r, Nat.add_assoc in IH.
        rewrite IH by (rewrite <- app_assoc; reflexivity). rewrite tsizes_cons, seq_app, flat_map_app, fold_left_app. reflexivity. }
      intros e1. specialize (G ts [] e1 eq_refl). change (tsizes []) with 0 in G. rewrite Nat.add_0_r in G. exact G.
  Qed.

  Definition all_reqs : list req := flat_map reqs (seq 0 (length nodes)).
  Definition fmt_edit : file_edit := fold_left push all_reqs fe_new.

  Lemma table_size : length nodes = tsize T.
  Proof. destruct WF as ((L & _) & _). exact L. Qed.

  Lemma node_edit : reformat_node (length nodes) f fall_spacing F_WHITESPACE root fe_new = Ok fmt_edit.
  Proof. unfold root. rewrite (reformat_ok T 0 0 None _ _ (At_root T)) by (rewrite table_size; lia). unfold fmt_edit, all_reqs. rewrite table_size. reflexivity. Qed.

  (** *** What is requested *)
  Lemma in_all : forall r, In r all_reqs <-> exists n, valid f n /\ In r (reqs n).
  Proof.
    intros r. unfold all_reqs. rewrite in_flat_map. split; intros (n & A & B); exists n; (split; [|exact B]).
    - apply in_seq in A. unfold valid. lia.
    - apply in_seq. unfold valid in A. lia.
  Qed.

  Lemma in_after : forall r w o n g, In r (after w o n g) <-> exists m, o = Some m /\ ty f n = w /\ nl m = false /\ In r (g m).
  Proof.
    intros r w o n g. unfold after. destruct o as [m|].
    2:{ split; [intros []|intros (m & E & _); discriminate E]. }
    destruct (Nat.eqb_spec w (ty f n)) as [->|NE].
    2:{ split; [intros []|intros (m' & _ & E & _); congruence]. }
    destruct (nl m) eqn:N.
    - split; [intros []|intros (m' & E & _ & N' & _); injection E as <-; congruence].
    - split; [intros J; exists m; repeat split; assumption|intros (m' & E & _ & _ & J); injection E as <-; exact J].
  Qed.

  Lemma in_one : forall r a m, In r (one a m) <-> (blank m = true /\ length (str f m) <> 1 /\ r = RRep m) \/ (blank m = false /\ r = RIns a).
  Proof.
    intros r a m. unfold one. destruct (blank m).
    - destruct (Nat.eqb_spec (length (str f m)) 1) as [E|E].
      + split; [intros []|intros [(_ & X & _)|(X & _)]; [contradiction|discriminate X]].
      + split; [intros [<-|[]]; left; repeat split; assumption|intros [(_ & _ & ->)|(X & _)]; [left; reflexivity|discriminate X]].
    - split; [intros [<-|[]]; right; split; reflexivity|intros [(X & _)|(_ & ->)]; [discriminate X|left; reflexivity]].
  Qed.

  Lemma in_none : forall r m, In r (none m) <-> blank m = true /\ r = RDel m.
  Proof.
    intros r m. unfold none. destruct (blank m).
    - split; [intros [<-|[]]; split; reflexivity|intros (_ & ->); left; reflexivity].
    - split; [intros []|intros (X & _); discriminate X].
  Qed.

  Lemma req_del : forall n m, In (RDel m) (reqs n) <-> nl m = false /\ blank m = true /\ ((rs n = Some m /\ ty f n = L_ANGLE) \/ (ls n = Some m /\ ty f n = R_ANGLE)).
  Proof.
    intros n m. unfold reqs. rewrite !in_app_iff, !in_after. split.
    - intros [(x & _ & _ & _ & J)|[(x & _ & _ & _ & J)|[(x & E & W & N & J)|(x & E & W & N & J)]]].
      + apply in_one in J. destruct J as [(_ & _ & X)|(_ & X)]; discriminate X.
      + apply in_one in J. destruct J as [(_ & _ & X)|(_ & X)]; discriminate X.
      + apply in_none in J. destruct J as (B & X). injection X as <-. split; [exact N|]. split; [exact B|]. left. split; assumption.
      + apply in_none in J. destruct J as (B & X). injection X as <-. split; [exact N|]. split; [exact B|]. right. split; assumption.
    - intros (N & B & [(E & W)|(E & W)]); [right; right; left|right; right; right]; exists m; repeat split; try assumption; apply in_none; split; [exact B|reflexivity|exact B|reflexivity].
  Qed.

  Lemma req_rep : forall n m, In (RRep m) (reqs n) <-> nl m = false /\ blank m = true /\ length (str f m) <> 1 /\ ty f n = PIPE /\ (rs n = Some m \/ ls n = Some m).
  Proof.
    intros n m. unfold reqs. rewrite !in_app_iff, !in_after. split.
    - intros [(x & E & W & N & J)|[(x & E & W & N & J)|[(x & _ & _ & _ & J)|(x & _ & _ & _ & J)]]].
      + apply in_one in J. destruct J as [(B & L & X)|(_ & X)]; [|discriminate X]. injection X as <-. split; [exact N|]. split; [exact B|]. split; [exact L|]. split; [exact W|left; exact E].
      + apply in_one in J. destruct J as [(B & L & X)|(_ & X)]; [|discriminate X]. injection X as <-. split; [exact N|]. split; [exact B|]. split; [exact L|]. split; [exact W|right; exact E].
      + apply in_none in J. destruct J as (_ & X). discriminate X.
      + apply in_none in J. destruct J as (_ & X). discriminate X.
    - intros (N & B & L & W & [E|E]); [left|right; left]; exists m; repeat split; try assumption; apply in_one; left; repeat split; assumption.
  Qed.

  Lemma req_ins : forall n m, In (RIns m) (reqs n) <-> ty f n = PIPE /\ ((m = n /\ exists x, rs n = Some x /\ nl x = false /\ blank x = false) \/ (ls n = Some m /\ nl m = false /\ blank m = false)).
  Proof.
    intros n m. unfold reqs. rewrite !in_app_iff, !in_after. split.
    - intros [(x & E & W & N & J)|[(x & E & W & N & J)|[(x & _ & _ & _ & J)|(x & _ & _ & _ & J)]]].
      + apply in_one in J. destruct J as [(_ & _ & X)|(B & X)]; [discriminate X|]. injection X as ->. split; [exact W|]. left. split; [reflexivity|]. exists x. repeat split; assumption.
      + apply in_one in J. destruct J as [(_ & _ & X)|(B & X)]; [discriminate X|]. injection X as <-. split; [exact W|]. right. repeat split; assumption.
      + apply in_none in J. destruct J as (_ & X). discriminate X.
      + apply in_none in J. destruct J as (_ & X). discriminate X.
    - intros (W & [(-> & x & E & N & B)|(E & N & B)]); [left; exists x|right; left; exists m]; repeat split; try assumption; apply in_one; right; split; [exact B|reflexivity|exact B|reflexivity].
  Qed.

  (** *** The requests as an edit *)
  Definition texts_of (g : req -> option nat) (l : list req) : list (nat * bytes) :=
    flat_map (fun r => match g r with Some n => [(n, s_space)] | None => [] end) l.
  Definition is_rep (r : req) := match r with RRep n => Some n | _ => None end.
  Definition is_ins (r : req) := match r with RIns n => Some n | _ => None end.

  Lemma push_fields : forall l e,
    (forall m, In m (fe_deleted (fold_left push l e)) <-> In m (fe_deleted e) \/ In (RDel m) l) /\ fe_replaced (fold_left push l e) = fe_replaced e ++ texts_of is_rep l /\ fe_inserted (fold_left push l e) = fe_inserted e ++ texts_of is_ins l.
  Proof.
    induction l as [|r l IH]; intros e.
    - cbn [fold_left texts_of flat_map]. rewrite !app_nil_r. split; [|split; reflexivity]. intros m. cbn [In]. tauto.
    - cbn [fold_left]. destruct (IH (push e r)) as (A & B & C). split; [|split].
      + intros m. rewrite A. destruct r as [n|n|n]; cbn [push fe_delete fe_replace_with_text fe_insert_text_after fe_deleted In].
        * rewrite in_app_iff. cbn [In]. split; [intros [[X|[->|[]]]|X]; auto|intros [X|[X|X]]; auto]. injection X as ->. auto.
        * split; [intros [X|X]; auto|intros [X|[X|X]]; auto]. discriminate X.
        * split; [intros [X|X]; auto|intros [X|[X|X]]; auto]. discriminate X.
      + rewrite B. destruct r as [n|n|n]; cbn [push fe_delete fe_replace_with_text fe_insert_text_after fe_replaced texts_of flat_map is_rep app]; try reflexivity.
        rewrite <- app_assoc. reflexivity.
      + rewrite C. destruct r as [n|n|n]; cbn [push fe_delete fe_replace_with_text fe_insert_text_after fe_inserted texts_of flat_map is_ins app]; try reflexivity.
        rewrite <- app_assoc. reflexivity.
  Qed.

  Lemma first_texts : forall g l m, (exists r, In r l /\ g r = Some m) /\ first_for (texts_of g l) m = Some s_space
    \/ (~ exists r, In r l /\ g r = Some m) /\ first_for (texts_of g l) m = None.
  Proof.
    intros g l m. induction l as [|r l IH].
    - right. split; [intros (r & [] & _)|reflexivity].
    - cbn [texts_of flat_map]. fold (texts_of g l). destruct (g r) as [n|] eqn:G; cbn [app first_for].
      + destruct (Nat.eqb_spec n m) as [->|NE].
        * left. split; [exists r; split; [left; reflexivity|exact G]|reflexivity].
        * destruct IH as [((x & J & X) & E)|(N & E)]; [left|right]; (split; [|exact E]).
          -- exists x. split; [right; exact J|exact X].
          -- intros (x & [<-|J] & X); [congruence|]. apply N. exists x. split; assumption.
      + destruct IH as [((x & J & X) & E)|(N & E)]; [left|right]; (split; [|exact E]).
        * exists x. split; [right; exact J|exact X].
        * intros (x & [<-|J] & X); [congruence|]. apply N. exists x. split; assumption.
  Qed.

  (** *** Siblings in the tree *)
  Section Child.
    Variables (q pq : nat) (qq : option nat) (w : nat) (pre : list tree) (c : tree) (post : list tree).
    Hypothesis AQ : At T q pq qq (Node w (pre ++ c :: post)).
    Notation j := (S q + tsizes pre).
    Notation pj := (pq + tlens pre).

    Lemma child_at : At T j pj (Some q) c.
    Proof. exact (At_child _ _ _ _ _ _ _ _ AQ). Qed.

    Lemma child_place : nth_error (child_ids (S q) (pre ++ c :: post)) (length pre) = Some j.
    Proof. rewrite child_ids_app, nth_error_app2 by (rewrite child_ids_length; lia). rewrite child_ids_length, Nat.sub_diag. reflexivity. Qed.

    Lemma child_rs : rs j = match post with [] => None | _ => Some (j + tsize c) end.
    Proof.
      unfold rs. destruct (sibling_ok nodes T (proj1 WF) q _ (length pre) j (children_ok _ _ (proj1 WF) _ _ _ _ AQ) child_place) as (-> & _).
      cbn [t_children]. rewrite child_ids_app, nth_error_app2 by (rewrite child_ids_length; lia). rewrite child_ids_length.
      replace (S (length pre) - length pre) with 1 by lia. cbn [child_ids nth_error]. destruct post; reflexivity.
    Qed.

    Lemma child_ls_nil : pre = [] -> ls j = None.
    Proof.
      intros E. unfold ls. destruct (sibling_ok nodes T (proj1 WF) q _ (length pre) j (children_ok _ _ (proj1 WF) _ _ _ _ AQ) child_place) as (_ & ->).
      rewrite E. reflexivity.
    Qed.

    Lemma child_ls : forall pre' x, pre = pre' ++ [x] -> ls j = Some (S q + tsizes pre').
    Proof.
      intros pre' x E. unfold ls. destruct (sibling_ok nodes T (proj1 WF) q _ (length pre) j (children_ok _ _ (proj1 WF) _ _ _ _ AQ) child_place) as (_ & ->).
      rewrite E, app_length. cbn [length]. replace (length pre' + 1) with (S (length pre')) by lia. cbn [t_children].
      rewrite <- app_assoc, child_ids_app, nth_error_app2 by (rewrite child_ids_length; lia). rewrite child_ids_length, Nat.sub_diag. reflexivity.
    Qed.
  End Child.

  Lemma at_view : forall i p q t, At T i p q t -> ty f i = t_ty t /\ str f i = sub p (p + tlen t) s.
  Proof. intros i p q t A. pose proof (proj2 (proj1 WF) _ _ _ _ A) as E. unfold ty, str, rng, at_node. rewrite E. split; reflexivity. Qed.

  Lemma label_ty : forall t p, l_ty (label s t p) = t_ty t.
  Proof. intros [ty n|ty ts] p; reflexivity. Qed.

  Fixpoint labels (l : list tree) (q : nat) : list ltree :=
    match l with [] => [] | x :: r => label s x q :: labels r (q + tlen x) end.
  Lemma label_node : forall ty ts p, label s (Node ty ts) p = LNode ty (labels ts p).
  Proof. reflexivity. Qed.

  Lemma label_text : forall t p, p + tlen t <= length s -> ltext (label s t p) = sub p (p + tlen t) s.
  Proof.
    intros t. induction t as [ty n|ty ts F] using tree_ind'; intros p L; [reflexivity|]. rewrite label_node. cbn [ltext tlen] in *. fold (tlens ts) in *.
    revert p L. induction F as [|x l Hx F IH]; intros p L.
    - cbn. unfold tlens. cbn. rewrite Nat.add_0_r, sub_empty. reflexivity.
    - rewrite tlens_cons in *. cbn [labels flat_map]. rewrite Hx by lia. rewrite IH by lia. rewrite Nat.add_assoc, sub_app by lia. reflexivity.
  Qed.

  Lemma at_label : forall i p q t, At T i p q t -> ltext (label s t p) = str f i /\ l_ty (label s t p) = ty f i.
  Proof.
    intros i p q t A. destruct (at_view _ _ _ _ A) as (-> & ->). split; [|apply label_ty]. apply label_text.
    pose proof A as G. apply AtG_At in G. apply AtG_bounds in G. rewrite <- (proj2 WF). lia.
  Qed.

  (** *** The edit at a child *)
  Section Edit.
    Variables (q pq : nat) (qq : option nat) (w : nat) (pre : list tree) (c : tree) (post : list tree) (prev : option ltree).
    Hypothesis AQ : At T q pq qq (Node w (pre ++ c :: post)).
    Hypothesis PREV : (pre = [] /\ prev = None) \/ exists pre' x, pre = pre' ++ [x] /\ prev = Some (label s x (pq + tlens pre')).
    Notation j := (S q + tsizes pre).
    Notation pj := (pq + tlens pre).
    Notation C := (label s c pj).
    Notation next := (hd_error (labels post (pj + tlen c))).

    Definition has (v : nat) (o : option nat) : bool := match o with Some n => ty f n =? v | None => false end.

    Lemma prev_is : forall v, is_of v prev = has v (ls j).
    Proof.
      intros v. destruct PREV as [(E & ->)|(pre' & x & E & ->)].
      - rewrite (child_ls_nil _ _ _ _ _ _ _ AQ E). reflexivity.
      - rewrite (child_ls _ _ _ _ _ _ _ AQ _ _ E). cbn [is_of has]. rewrite label_ty. f_equal.
        assert (A : At T q pq qq (Node w (pre' ++ x :: c :: post))) by (rewrite E, <- app_assoc in AQ; exact AQ).
        symmetry. exact (proj1 (at_view _ _ _ _ (child_at _ _ _ _ _ _ _ A))).
    Qed.

    Lemma next_at : forall d post', post = d :: post' -> At T (j + tsize c) (pj + tlen c) (Some q) d.
    Proof.
      intros d post' E. rewrite E in AQ. assert (A : At T q pq qq (Node w ((pre ++ [c]) ++ d :: post'))) by (rewrite <- app_assoc; exact AQ).
      pose proof (child_at _ _ _ _ _ _ _ A) as X. rewrite tsizes_app, tlens_app, tsizes_cons, tlens_cons in X.
      change (tsizes []) with 0 in X. change (tlens []) with 0 in X. rewrite !Nat.add_0_r, !Nat.add_assoc in X. exact X.
    Qed.

    Lemma next_is : forall v, is_of v next = has v (rs j).
    Proof.
      intros v. rewrite (child_rs _ _ _ _ _ _ _ AQ). destruct post as [|d post'] eqn:E; [reflexivity|]. cbn [labels hd_error is_of has]. rewrite label_ty. f_equal.
      symmetry. rewrite <- E in *. exact (proj1 (at_view _ _ _ _ (next_at d post' E))).
    Qed.

    Lemma here : ltext C = str f j /\ l_ty C = ty f j.
    Proof. exact (at_label _ _ _ _ (child_at _ _ _ _ _ _ _ AQ)). Qed.

    Lemma neighbours : forall n, valid f n -> (rs n = Some j <-> ls j = Some n) /\ (ls n = Some j <-> rs j = Some n).
    Proof.
      assert (G : forall n m, valid f n -> rs n = Some m -> ls m = Some n).
      { intros n m V E. destruct (valid_at f T WF n V) as (p & o & t & A & _). destruct o as [o|].
        - destruct (At_parent _ _ _ _ _ A) as (pd & qd & ty & pr & po & Ad & -> & ->). rewrite (child_rs _ _ _ _ _ _ _ Ad) in E.
          destruct po as [|d po]; [discriminate E|]. injection E as <-.
          assert (A' : At T o pd qd (Node ty ((pr ++ [t]) ++ d :: po))) by (rewrite <- app_assoc; exact Ad).
          pose proof (child_ls _ _ _ _ _ _ _ A' pr t eq_refl) as X. rewrite tsizes_app, tsizes_cons in X. change (tsizes []) with 0 in X.
          rewrite Nat.add_0_r, Nat.add_assoc in X. exact X.
        - destruct (At_no_parent _ _ _ _ A) as (-> & _). unfold rs in E. rewrite (sibling_root nodes T (proj1 WF)) in E. discriminate E. }
      assert (G' : forall n m, valid f n -> ls n = Some m -> rs m = Some n).
      { intros n m V E. destruct (valid_at f T WF n V) as (p & o & t & A & _). destruct o as [o|].
        - destruct (At_parent _ _ _ _ _ A) as (pd & qd & ty & pr & po & Ad & -> & ->). destruct (exists_last_or_nil _ pr) as [->|(pr' & x & ->)].
          + rewrite (child_ls_nil _ _ _ _ _ _ _ Ad eq_refl) in E. discriminate E.
          + rewrite (child_ls _ _ _ _ _ _ _ Ad _ _ eq_refl) in E. assert (EM : m = S o + tsizes pr') by congruence. subst m.
            assert (A' : At T o pd qd (Node ty (pr' ++ x :: t :: po))) by (rewrite <- app_assoc in Ad; exact Ad).
            rewrite (child_rs _ _ _ _ _ _ _ A'). rewrite tsizes_app, tsizes_cons. change (tsizes []) with 0. rewrite Nat.add_0_r, Nat.add_assoc. reflexivity.
        - destruct (At_no_parent _ _ _ _ A) as (-> & _). unfold ls in E. rewrite (sibling_root nodes T (proj1 WF)) in E. discriminate E. }
      intros n V. pose proof (at_valid f T WF _ _ _ _ (child_at _ _ _ _ _ _ _ AQ)) as VJ. split; split; intros E.
      - exact (G _ _ V E).
      - exact (G' _ _ VJ E).
      - exact (G' _ _ V E).
      - exact (G _ _ VJ E).
    Qed.

    Lemma has_iff : forall v o, has v o = true <-> exists n, o = Some n /\ ty f n = v.
    Proof.
      intros v [n|]; cbn [has].
      - rewrite Nat.eqb_eq. split; [intros E; exists n; split; [reflexivity|exact E]|intros (m & E & X); injection E as <-; exact X].
      - split; [discriminate|intros (n & E & _); discriminate E].
    Qed.

    Lemma del_here : deletes fmt_edit j = goes prev C next.
    Proof.
      apply eq_true_iff_eq. unfold deletes. rewrite existsb_exists.
      assert (E1 : (exists x, In x (fe_deleted fmt_edit) /\ (j =? x) = true) <-> exists n, valid f n /\ In (RDel j) (reqs n)).
      { rewrite <- in_all. destruct (push_fields all_reqs fe_new) as (D & _). fold fmt_edit in D. split.
        - intros (x & J & E). apply Nat.eqb_eq in E. subst x. apply D in J. destruct J as [[]|J]. exact J.
        - intros J. exists j. split; [apply D; right; exact J|apply Nat.eqb_refl]. }
      rewrite E1. unfold goes, is_blank, has_newline. destruct here as (HT & HY). rewrite HT, HY, prev_is, next_is. fold (nl j). fold (blank j).
      rewrite !andb_true_iff, orb_true_iff, negb_true_iff, !has_iff.
      destruct (sib j (at_valid f T WF _ _ _ _ (child_at _ _ _ _ _ _ _ AQ))) as (_ & _ & VR & VL). split.
      - intros (n & V & J). apply req_del in J. destruct J as (N & B & J). split; [split; assumption|]. destruct (neighbours n V) as (N1 & N2).
        destruct J as [(E & Y)|(E & Y)]; [left|right]; exists n; (split; [|exact Y]); [apply N1|apply N2]; exact E.
      - intros ((B & N) & [(n & E & Y)|(n & E & Y)]); exists n.
        + pose proof (VL n E) as V. split; [exact V|]. apply req_del. split; [exact N|]. split; [exact B|]. left. split; [apply (neighbours n V); exact E|exact Y].
        + pose proof (VR n E) as V. split; [exact V|]. apply req_del. split; [exact N|]. split; [exact B|]. right. split; [apply (neighbours n V); exact E|exact Y].
    Qed.

    Lemma rep_here : first_for (fe_replaced fmt_edit) j = if becomes_space prev C next then Some s_space else None.
    Proof.
      destruct (push_fields all_reqs fe_new) as (_ & R & _). fold fmt_edit in R. rewrite R. cbn [fe_new fe_replaced app].
      assert (E : becomes_space prev C next = true <-> exists r, In r all_reqs /\ is_rep r = Some j).
      { unfold becomes_space, is_blank, has_newline. destruct here as (HT & HY). rewrite HT, HY, prev_is, next_is. fold (nl j). fold (blank j).
        rewrite !andb_true_iff, orb_true_iff, !negb_true_iff, !has_iff, Nat.eqb_neq.
        destruct (sib j (at_valid f T WF _ _ _ _ (child_at _ _ _ _ _ _ _ AQ))) as (_ & _ & VR & VL). split.
        - intros (((B & N) & L) & [(n & E & Y)|(n & E & Y)]); exists (RRep j); (split; [|reflexivity]); apply in_all; exists n.
          + pose proof (VL n E) as V. split; [exact V|]. apply req_rep. repeat split; try assumption. left. apply (neighbours n V). exact E.
          + pose proof (VR n E) as V. split; [exact V|]. apply req_rep. repeat split; try assumption. right. apply (neighbours n V). exact E.
        - intros (r & J & E). destruct r; try discriminate E. injection E as ->. apply in_all in J. destruct J as (m & V & J). apply req_rep in J.
          destruct J as (N & B & L & Y & J). split; [split; [split; assumption|exact L]|]. destruct (neighbours m V) as (N1 & N2).
          destruct J as [E|E]; [left|right]; exists m; (split; [|exact Y]); [apply N1|apply N2]; exact E. }
      destruct (first_texts is_rep all_reqs j) as [(X & ->)|(X & ->)].
      - rewrite (proj2 E X). reflexivity.
      - destruct (becomes_space prev C next); [destruct (X (proj1 E eq_refl))|reflexivity].
    Qed.

    Lemma ins_here : first_for (fe_inserted fmt_edit) j = if needs_space C next then Some s_space else None.
    Proof.
      destruct (push_fields all_reqs fe_new) as (_ & _ & R). fold fmt_edit in R. rewrite R. cbn [fe_new fe_inserted app].
      assert (E : needs_space C next = true <-> exists r, In r all_reqs /\ is_ins r = Some j).
      { assert (VJ := at_valid f T WF _ _ _ _ (child_at _ _ _ _ _ _ _ AQ)).
        transitivity (exists n, rs j = Some n /\ ((ty f j = PIPE /\ nl n = false /\ blank n = false) \/ (ty f n = PIPE /\ nl j = false /\ blank j = false))).
        - unfold needs_space. rewrite (child_rs _ _ _ _ _ _ _ AQ). destruct here as (HT & HY). destruct post as [|d post'] eqn:EP; cbn [labels hd_error].
          + split; [discriminate|intros (n & X & _); discriminate X].
          + rewrite <- EP in *. pose proof (next_at d post' EP) as AD. destruct (at_label _ _ _ _ AD) as (DT & DY).
            unfold is_blank, has_newline. rewrite HT, HY, DT, DY. fold (nl j) (nl (j + tsize c)) (blank j) (blank (j + tsize c)).
            rewrite orb_true_iff, !andb_true_iff, !negb_true_iff, !Nat.eqb_eq. split.
            * intros [((A & B) & D)|((A & B) & D)]; eexists; (split; [reflexivity|]); [left|right]; repeat split; assumption.
            * intros (n & X & Y). injection X as <-. destruct Y as [(A & B & D)|(A & B & D)]; [left|right]; repeat split; assumption.
        - split.
          + intros (n & X & Y). exists (RIns j). split; [|reflexivity]. apply in_all. destruct Y as [(A & B & D)|(A & B & D)].
            * exists j. split; [exact VJ|]. apply req_ins. split; [exact A|]. left. split; [reflexivity|]. exists n. repeat split; assumption.
            * destruct (sib j VJ) as (_ & _ & VR & _). pose proof (VR n X) as V. exists n. split; [exact V|]. apply req_ins. split; [exact A|]. right.
              split; [apply (neighbours n V); exact X|]. split; assumption.
          + intros (r & J & X). destruct r; try discriminate X. injection X as ->. apply in_all in J. destruct J as (m & V & J). apply req_ins in J.
            destruct J as (Y & [(EM & x & A & B & D)|(A & B & D)]).
            * rewrite <- EM in *. exists x. split; [exact A|]. left. repeat split; assumption.
            * exists m. split; [apply (neighbours m V); exact A|]. right. repeat split; assumption. }
      destruct (first_texts is_ins all_reqs j) as [(X & ->)|(X & ->)].
      - rewrite (proj2 E X). reflexivity.
      - destruct (needs_space C next); [destruct (X (proj1 E eq_refl))|reflexivity].
    Qed.
  End Edit.

  (** *** The result *)
  Fixpoint fmts (prev : option ltree) (l : list ltree) : list ltree :=
    match l with
    | [] => []
    | c :: r =>
        let next := hd_error r in
        (if goes prev c next then []
         else if becomes_space prev c next then [one_space]
         else formatted c :: if needs_space c next then [one_space] else [])
        ++ fmts (Some c) r
    end.
  Lemma formatted_node : forall ty cs, formatted (LNode ty cs) = LNode ty (fmts None cs).
  Proof. reflexivity. Qed.

  Notation E := (edited (deletes fmt_edit) (first_for (fe_replaced fmt_edit)) (first_for (fe_inserted fmt_edit)) s).

  Lemma edited_formatted : forall t i p q, At T i p q t ->
    E t i p = if deletes fmt_edit i then [] else
      match first_for (fe_replaced fmt_edit) i with
      | Some r => r
      | None => ltext (formatted (label s t p)) ++ match first_for (fe_inserted fmt_edit) i with Some x => x | None => [] end
      end.
  Proof.
    intros t. induction t as [w n|w ts F] using tree_ind'; intros i p q A; [reflexivity|]. rewrite edited_node, label_node, formatted_node. cbn [ltext].
    assert (G : forall post pre prev, ts = pre ++ post -> ((pre = [] /\ prev = None) \/ exists pre' x, pre = pre' ++ [x] /\ prev = Some (label s x (p + tlens pre'))) ->
      editeds (deletes fmt_edit) (first_for (fe_replaced fmt_edit)) (first_for (fe_inserted fmt_edit)) s post (S i + tsizes pre) (p + tlens pre)
      = flat_map ltext (fmts prev (labels post (p + tlens pre)))).
    { induction post as [|c post IH]; intros pre prev ET PREV; [reflexivity|]. cbn [editeds labels fmts]. cbv zeta. rewrite flat_map_app.
      assert (AQ : At T i p q (Node w (pre ++ c :: post))) by (rewrite <- ET; exact A).
      assert (FC : forall i p q, At T i p q c -> E c i p = if deletes fmt_edit i then [] else
        match first_for (fe_replaced fmt_edit) i with
        | Some r => r
        | None => ltext (formatted (label s c p)) ++ match first_for (fe_inserted fmt_edit) i with Some x => x | None => [] end
        end).
      { rewrite ET in F. apply Forall_app in F. destruct F as (_ & F). inversion F; assumption. }
      rewrite (FC _ _ _ (child_at _ _ _ _ _ _ _ AQ)). rewrite (del_here _ _ _ _ _ _ _ _ AQ PREV), (rep_here _ _ _ _ _ _ _ _ AQ PREV), (ins_here _ _ _ _ _ _ _ AQ).
      specialize (IH (pre ++ [c]) (Some (label s c (p + tlens pre)))).
      rewrite tsizes_app, tlens_app, tsizes_cons, tlens_cons in IH. change (tsizes []) with 0 in IH. change (tlens []) with 0 in IH.
      rewrite !Nat.add_0_r, !Nat.add_assoc in IH. rewrite IH; [|rewrite <- app_assoc; exact ET|right; exists pre, c; split; reflexivity].
      f_equal. destruct (goes _ _ _); [reflexivity|]. destruct (becomes_space _ _ _); [reflexivity|]. cbn [flat_map].
      destruct (needs_space _ _); cbn [flat_map]; rewrite ?app_nil_r; reflexivity. }
    specialize (G ts [] None eq_refl (or_introl (conj eq_refl eq_refl))). change (tsizes []) with 0 in G. change (tlens []) with 0 in G. rewrite !Nat.add_0_r in G. rewrite G. reflexivity.
  Qed.

  Theorem reformat_result : exists ops, reformat f = Ok ops /\ apply ops (as_text s) = Ok (ltext (formatted (label s T 0))).
  Proof.
    destruct (file_edit_ok f T fmt_edit WF CT) as (ops & EO & AP & _). exists ops. unfold reformat, reformat_file. rewrite node_edit. cbn [bind].
    split; [exact EO|]. rewrite AP. f_equal. unfold edit_result. rewrite (edited_formatted _ _ _ _ (At_root T)).
    assert (R0 : rs 0 = None /\ ls 0 = None) by (unfold rs, ls; rewrite !(sibling_root nodes T (proj1 WF)); split; reflexivity).
    assert (NO : forall n, valid f n -> rs n <> Some 0 /\ ls n <> Some 0).
    { intros n V. destruct (valid_at f T WF n V) as (p & o & t & A & _). destruct o as [o|].
      - destruct (At_parent _ _ _ _ _ A) as (pd & qd & ty & pr & po & Ad & -> & ->). rewrite (child_rs _ _ _ _ _ _ _ Ad). split.
        + destruct po; [discriminate|]. intros X. injection X as X. discriminate X.
        + destruct (exists_last_or_nil _ pr) as [->|(pr' & x & ->)]; [rewrite (child_ls_nil _ _ _ _ _ _ _ Ad eq_refl); discriminate|].
          rewrite (child_ls _ _ _ _ _ _ _ Ad _ _ eq_refl). intros X. injection X as X. discriminate X.
      - destruct (At_no_parent _ _ _ _ A) as (-> & _). destruct R0 as (-> & ->). split; discriminate. }
    destruct (push_fields all_reqs fe_new) as (D & R & I). fold fmt_edit in D, R, I.
    replace (deletes fmt_edit 0) with false.
    2:{ symmetry. apply not_true_is_false. unfold deletes. rewrite existsb_exists. intros (x & J & X). apply Nat.eqb_eq in X. subst x. apply D in J.
        destruct J as [[]|J]. apply in_all in J. destruct J as (n & V & J). apply req_del in J. destruct J as (_ & _ & J). destruct (NO n V) as (N1 & N2).
        destruct J as [(X & _)|(X & _)]; contradiction. }
    rewrite R, I. cbn [fe_new fe_replaced fe_inserted app].
    destruct (first_texts is_rep all_reqs 0) as [((r & J & X) & _)|(_ & ->)].
    { exfalso. destruct r; try discriminate X. injection X as ->. apply in_all in J. destruct J as (n & V & J). apply req_rep in J.
      destruct J as (_ & _ & _ & _ & J). destruct (NO n V) as (N1 & N2). destruct J as [Y|Y]; contradiction. }
    destruct (first_texts is_ins all_reqs 0) as [((r & J & X) & _)|(_ & ->)]; [|apply app_nil_r].
    exfalso. destruct r; try discriminate X. injection X as ->. apply in_all in J. destruct J as (n & V & J). apply req_ins in J.
    destruct J as (_ & [(<- & x & Y & _)|(Y & _)]).
    - rewrite (proj1 R0) in Y. discriminate Y.
    - destruct (NO n V) as (_ & N2). contradiction.
  Qed.
End Format.

(** ** Formatting a labelled tree *)
Section LInd.
  Variable P : ltree -> Prop.
  Hypothesis HL : forall ty s, P (LLeaf ty s).
  Hypothesis HN : forall ty cs, Forall P cs -> P (LNode ty cs).
  Fixpoint ltree_ind' (t : ltree) : P t :=
    match t with
    | LLeaf ty s => HL ty s
    | LNode ty cs => HN ty cs ((fix go (l : list ltree) : Forall P l :=
        match l with [] => Forall_nil P | x :: r => @Forall_cons _ P x r (ltree_ind' x) (go r) end) cs)
    end.
End LInd.

Lemma formatted_ty : forall t, l_ty (formatted t) = l_ty t.
Proof. intros [ty s|ty cs]; reflexivity. Qed.
Lemma formatted_blank : forall t, is_blank (formatted t) = is_blank t.
Proof. intros t. unfold is_blank. rewrite formatted_ty. reflexivity. Qed.

Definition nlb (s : bytes) : bool := existsb (Nat.eqb 10) s.
Lemma nlb_app : forall a b, nlb (a ++ b) = nlb a || nlb b.
Proof. intros a b. unfold nlb. apply existsb_app. Qed.

Lemma formatted_nl : forall t, has_newline (formatted t) = has_newline t.
Proof.
  intros t. unfold has_newline. induction t as [ty s|ty cs F] using ltree_ind'; [reflexivity|]. rewrite formatted_node. cbn [ltext].
  generalize (@None ltree) as prev. induction F as [|c r H F IH]; intros prev; [reflexivity|]. cbn [fmts flat_map]. cbv zeta. rewrite flat_map_app.
  change (existsb (Nat.eqb 10)) with nlb in *. rewrite !nlb_app, IH. f_equal.
  destruct (goes prev c (hd_error r)) eqn:G.
  { unfold goes in G. rewrite !andb_true_iff, negb_true_iff in G. destruct G as ((_ & G) & _). change (nlb (ltext c) = false) in G. rewrite G. reflexivity. }
  destruct (becomes_space prev c (hd_error r)) eqn:B.
  { unfold becomes_space in B. rewrite !andb_true_iff, !negb_true_iff in B. destruct B as (((_ & B) & _) & _). change (nlb (ltext c) = false) in B. rewrite B. reflexivity. }
  cbn [flat_map]. rewrite nlb_app, H. destruct (needs_space c (hd_error r)); cbn [flat_map]; rewrite ?nlb_app; cbn; rewrite ?orb_false_r; reflexivity.
Qed.

Lemma formatted_soft : forall t, soft (formatted t) = soft t.
Proof. intros t. unfold soft. rewrite formatted_blank, formatted_nl. reflexivity. Qed.

(** *** What stays *)
Lemma formatted_solid : forall t, ws_leaves t -> filter solid (lleaves (formatted t)) = filter solid (lleaves t).
Proof.
  intros t. induction t as [ty s|ty cs F] using ltree_ind'; intros W; [reflexivity|]. rewrite formatted_node. cbn [lleaves].
  assert (WC : Forall ws_leaves cs) by (inversion W; assumption). clear W. generalize (@None ltree) as prev.
  induction F as [|c r H F IH]; intros prev; [reflexivity|]. pose proof (Forall_inv WC) as W1. specialize (IH (Forall_inv_tail WC)).
  cbn [fmts flat_map]. cbv zeta. rewrite flat_map_app, !filter_app, IH. f_equal.
  assert (D : soft c = true -> filter solid (lleaves c) = []).
  { unfold soft. rewrite andb_true_iff, negb_true_iff. intros (B & N). unfold is_blank in B. apply Nat.eqb_eq in B. destruct W1 as [ty' s'|ty' cs' NE _].
    - cbn [l_ty] in B. subst ty'. unfold has_newline in N. cbn [ltext] in N. cbn [lleaves filter]. unfold solid. cbn [fst snd]. rewrite Nat.eqb_refl. cbn [negb orb].
      rewrite N. reflexivity.
    - cbn [l_ty] in B. contradiction. }
  destruct (goes prev c (hd_error r)) eqn:G.
  { unfold goes in G. rewrite andb_true_iff in G. symmetry. apply D. exact (proj1 G). }
  destruct (becomes_space prev c (hd_error r)) eqn:B.
  { unfold becomes_space in B. rewrite andb_true_iff, (andb_true_iff (is_blank c && _)) in B. cbn. symmetry. apply D. exact (proj1 (proj1 B)). }
  cbn [flat_map]. rewrite filter_app, (H W1). destruct (needs_space c (hd_error r)); cbn; rewrite ?app_nil_r; reflexivity.
Qed.

(** *** A well spaced file stays *)
Lemma still : forall l prev, (forall pre a b post, l = pre ++ a :: b :: post -> spaced a b) ->
  (match prev, l with Some a, b :: _ => spaced a b | _, _ => True end) -> Forall (fun c => formatted c = c) l -> fmts prev l = l.
Proof.
  induction l as [|c r IH]; intros prev S P F; [reflexivity|]. cbn [fmts]. cbv zeta.
  rewrite (IH (Some c)).
  2:{ intros pre a b post E. apply (S (c :: pre) a b post). cbn [app]. f_equal. exact E. }
  2:{ destruct r as [|d r']; [exact I|]. exact (S [] c d r' eq_refl). }
  2:{ inversion F; assumption. }
  assert (SN : match hd_error r with Some d => spaced c d | None => True end) by (destruct r as [|d r']; [exact I|exact (S [] c d r' eq_refl)]).
  replace (goes prev c (hd_error r)) with false.
  2:{ symmetry. apply not_true_is_false. unfold goes. rewrite andb_true_iff, orb_true_iff. intros (B & [X|X]).
      - destruct prev as [a|]; [|discriminate X]. cbn [is_of] in X. apply Nat.eqb_eq in X. pose proof (sp_open _ _ P X) as Y. unfold soft in Y. congruence.
      - destruct (hd_error r) as [d|]; [|discriminate X]. cbn [is_of] in X. apply Nat.eqb_eq in X. pose proof (sp_close _ _ SN X) as Y. unfold soft in Y. congruence. }
  replace (becomes_space prev c (hd_error r)) with false.
  2:{ symmetry. apply not_true_is_false. unfold becomes_space. rewrite !andb_true_iff, orb_true_iff, !negb_true_iff, Nat.eqb_neq. intros (((B & N) & L) & [X|X]).
      - destruct prev as [a|]; [|discriminate X]. cbn [is_of] in X. apply Nat.eqb_eq in X. exact (L (proj2 (sp_after _ _ P X N))).
      - destruct (hd_error r) as [d|]; [|discriminate X]. cbn [is_of] in X. apply Nat.eqb_eq in X. exact (L (proj2 (sp_before _ _ SN X N))). }
  replace (needs_space c (hd_error r)) with false.
  2:{ symmetry. apply not_true_is_false. unfold needs_space. destruct (hd_error r) as [d|]; [|discriminate]. rewrite orb_true_iff, !andb_true_iff, !negb_true_iff, !Nat.eqb_eq.
      intros [((X & B) & N)|((X & B) & N)].
      - pose proof (proj1 (sp_after _ _ SN X N)). congruence.
      - pose proof (proj1 (sp_before _ _ SN X N)). congruence. }
  rewrite (Forall_inv F). reflexivity.
Qed.

Lemma well_spaced_stays : forall t, well_spaced t -> formatted t = t.
Proof.
  intros t. induction t as [ty s|ty cs F] using ltree_ind'; intros W; [reflexivity|]. inversion W as [|ty' cs' WC S E]; subst. rewrite formatted_node. f_equal.
  apply still; [exact S|exact I|]. rewrite Forall_forall in *. intros c J. exact (F c J (WC c J)).
Qed.

(** *** Formatting gives a well spaced file *)
Fixpoint chain (l : list ltree) : Prop :=
  match l with a :: ((b :: _) as r) => spaced a b /\ chain r | _ => True end.
Lemma chain_cons : forall a l, chain l -> (match hd_error l with Some b => spaced a b | None => True end) -> chain (a :: l).
Proof. intros a [|b l] C S; [exact I|]. split; assumption. Qed.
Lemma chain_split : forall l, chain l -> forall pre a b post, l = pre ++ a :: b :: post -> spaced a b.
Proof.
  intros l C pre. revert l C. induction pre as [|x pre IH]; intros l C a b post E.
  - subst l. exact (proj1 C).
  - subst l. cbn [app] in C. apply (IH (pre ++ a :: b :: post)) with (post := post); [|reflexivity]. destruct (pre ++ a :: b :: post); [exact I|exact (proj2 C)].
Qed.

Lemma ws_leaf_formatted : forall t, ws_leaves t -> is_blank t = true -> formatted t = t.
Proof. intros t [ty s|ty cs N _] B; [reflexivity|]. unfold is_blank in B. cbn [l_ty] in B. apply Nat.eqb_eq in B. contradiction. Qed.

Lemma blank_kind : forall t, is_blank t = true -> l_ty t <> PIPE /\ l_ty t <> L_ANGLE /\ l_ty t <> R_ANGLE.
Proof. intros t B. unfold is_blank in B. apply Nat.eqb_eq in B. rewrite B. repeat split; discriminate. Qed.
Lemma space_facts : is_blank one_space = true /\ has_newline one_space = false /\ length (ltext one_space) = 1.
Proof. repeat split; reflexivity. Qed.

(** [a], then a piece of whitespace [w] that stays, possibly with its text changed. *)
Lemma spaced_after : forall a w, is_blank w = true -> is_blank a = false ->
  (soft w = true -> l_ty a <> L_ANGLE) -> (l_ty a = PIPE -> has_newline w = false -> length (ltext w) = 1) -> spaced a w.
Proof.
  intros a w BW BA O P. destruct (blank_kind w BW) as (K1 & K2 & K3). constructor.
  - intros X. apply not_true_is_false. intros Y. exact (O Y X).
  - intros X. contradiction.
  - intros X N. split; [exact BW|exact (P X N)].
  - intros X. contradiction.
Qed.
Lemma spaced_before : forall w b, is_blank w = true -> is_blank b = false ->
  (soft w = true -> l_ty b <> R_ANGLE) -> (l_ty b = PIPE -> has_newline w = false -> length (ltext w) = 1) -> spaced w b.
Proof.
  intros w b BW BB O P. destruct (blank_kind w BW) as (K1 & K2 & K3). constructor.
  - intros X. contradiction.
  - intros X. apply not_true_is_false. intros Y. exact (O Y X).
  - intros X. contradiction.
  - intros X N. split; [exact BW|exact (P X N)].
Qed.
Lemma spaced_direct : forall a b, is_blank a = false -> is_blank b = false -> (l_ty a = PIPE -> has_newline b = true) -> (l_ty b = PIPE -> has_newline a = true) -> spaced a b.
Proof.
  intros a b BA BB A B. constructor.
  - intros _. unfold soft. rewrite BB. reflexivity.
  - intros _. unfold soft. rewrite BA. reflexivity.
  - intros X N. rewrite (A X) in N. discriminate N.
  - intros X N. rewrite (B X) in N. discriminate N.
Qed.

Lemma goes_nonblank : forall p c n, is_blank c = false -> goes p c n = false.
Proof. intros p c n B. unfold goes. rewrite B. reflexivity. Qed.
Lemma becomes_nonblank : forall p c n, is_blank c = false -> becomes_space p c n = false.
Proof. intros p c n B. unfold becomes_space. rewrite B. reflexivity. Qed.

(** The first thing written after a sibling [c]. *)
Lemma fmts_hd_nonblank : forall prev e r, is_blank e = false -> hd_error (fmts prev (e :: r)) = Some (formatted e).
Proof. intros prev e r B. cbn [fmts]. cbv zeta. rewrite (goes_nonblank _ _ _ B), (becomes_nonblank _ _ _ B). reflexivity. Qed.

Lemma needs_false : forall c d, needs_space c (Some d) = false -> is_blank c = false -> is_blank d = false ->
  (l_ty c = PIPE -> has_newline d = true) /\ (l_ty d = PIPE -> has_newline c = true).
Proof.
  intros c d H BC BD. unfold needs_space in H. rewrite BC, BD in H. cbn [negb] in H. rewrite !andb_true_r in H. apply orb_false_iff in H. destruct H as (A & B). split; intros X.
  - rewrite X, Nat.eqb_refl in A. cbn [andb] in A. apply negb_false_iff in A. exact A.
  - rewrite X, Nat.eqb_refl in B. cbn [andb] in B. apply negb_false_iff in B. exact B.
Qed.

Lemma fmts_chain : forall l prev, Forall ws_leaves l ->
  (forall pre a b post, l = pre ++ a :: b :: post -> ~ (is_blank a = true /\ is_blank b = true)) ->
  (forall pre a b post, l = pre ++ a :: b :: post -> ~ clash a b) ->
  (forall pre a w b post, l = pre ++ a :: w :: b :: post -> is_blank w = true -> ~ clash a b) ->
  chain (fmts prev l).
Proof.
  induction l as [|c r IH]; intros prev W H1 H2 H3; [exact I|].
  assert (CR : chain (fmts (Some c) r)).
  { apply IH.
    - inversion W; assumption.
    - intros pre a b post E. apply (H1 (c :: pre) a b post). cbn [app]. f_equal. exact E.
    - intros pre a b post E. apply (H2 (c :: pre) a b post). cbn [app]. f_equal. exact E.
    - intros pre a w b post E. apply (H3 (c :: pre) a w b post). cbn [app]. f_equal. exact E. }
  cbn [fmts]. cbv zeta. destruct (is_blank c) eqn:BC.
  - (* whitespace: what follows is not *)
    assert (HD : forall x, is_blank x = true -> (forall e, hd_error r = Some e -> is_blank e = false -> spaced x (formatted e)) -> chain (x :: fmts (Some c) r)).
    { intros x BX S. apply chain_cons; [exact CR|]. destruct r as [|e r']; [exact I|].
      assert (BE : is_blank e = false). { apply not_true_is_false. intros X. exact (H1 [] c e r' eq_refl (conj BC X)). }
      rewrite (fmts_hd_nonblank _ _ _ BE). exact (S e eq_refl BE). }
    destruct (goes prev c (hd_error r)) eqn:G; [exact CR|]. destruct (becomes_space prev c (hd_error r)) eqn:B; cbn [app].
    + destruct space_facts as (B1 & N1 & L1). apply HD; [exact B1|]. intros e E BE. apply spaced_before; [exact B1|rewrite formatted_blank; exact BE| |intros _ _; exact L1].
      intros _ X. rewrite formatted_ty in X. rewrite E in G, B. unfold goes in G. unfold becomes_space in B.
      apply andb_true_iff in B. destruct B as (B & _). apply andb_true_iff in B. destruct B as (B & _). rewrite B in G. cbn [is_of andb] in G. rewrite X, Nat.eqb_refl in G.
      rewrite orb_true_r in G. discriminate G.
    + replace (needs_space c (hd_error r)) with false.
      2:{ symmetry. unfold needs_space. destruct (hd_error r) as [d|]; [|reflexivity]. destruct (blank_kind c BC) as (K & _). rewrite BC. cbn [negb]. rewrite andb_false_r, orb_false_r.
          rewrite (proj2 (Nat.eqb_neq _ _) K). reflexivity. }
      rewrite (ws_leaf_formatted c (Forall_inv W) BC). apply HD; [exact BC|]. intros e E BE. rewrite E in G, B. cbn [app]. apply spaced_before; [exact BC|rewrite formatted_blank; exact BE| |].
      * intros S X. rewrite formatted_ty in X. unfold goes in G. fold (soft c) in G. rewrite S in G. cbn [is_of andb] in G. rewrite X, Nat.eqb_refl, orb_true_r in G. discriminate G.
      * intros X N. rewrite formatted_ty in X. unfold becomes_space in B. rewrite BC, N in B. cbn [negb andb is_of] in B. rewrite X, Nat.eqb_refl, orb_true_r, andb_true_r in B.
        apply negb_false_iff, Nat.eqb_eq in B. exact B.
  - rewrite (goes_nonblank _ _ _ BC), (becomes_nonblank _ _ _ BC). pose proof (formatted_blank c) as FB. rewrite BC in FB. cbn [app].
    destruct r as [|d r'].
    { cbn [hd_error needs_space app fmts]. exact I. }
    cbn [hd_error]. destruct (is_blank d) eqn:BD.
    + (* whitespace follows *)
      replace (needs_space c (Some d)) with false.
      2:{ symmetry. unfold needs_space. destruct (blank_kind d BD) as (K & _). rewrite BD. cbn [negb]. rewrite andb_false_r. cbn [andb orb].
          rewrite (proj2 (Nat.eqb_neq _ _) K). reflexivity. }
      cbn [app]. apply chain_cons; [exact CR|]. cbn [fmts]. cbv zeta. pose proof (Forall_inv (Forall_inv_tail W)) as WD.
      destruct (goes (Some c) d (hd_error r')) eqn:G; cbn [app].
      * destruct r' as [|e r'']; [exact I|].
        assert (BE : is_blank e = false). { apply not_true_is_false. intros X. exact (H1 [c] d e r'' eq_refl (conj BD X)). }
        rewrite (fmts_hd_nonblank _ _ _ BE). pose proof (H3 [] c d e r'' eq_refl BD) as NC. unfold goes in G. cbn [hd_error is_of] in G.
        apply andb_true_iff in G. destruct G as (_ & G). apply orb_true_iff in G. rewrite !Nat.eqb_eq in G.
        apply spaced_direct; [exact FB|rewrite formatted_blank; exact BE| |]; rewrite formatted_ty; intros X; exfalso.
        -- apply NC. right. split; [exact X|]. destruct G as [G|G]; [rewrite G in X; discriminate X|exact G].
        -- apply NC. left. split; [|exact X]. destruct G as [G|G]; [exact G|rewrite G in X; discriminate X].
      * destruct (becomes_space (Some c) d (hd_error r')) eqn:B; cbn [app hd_error].
        -- destruct space_facts as (B1 & N1 & L1). apply spaced_after; [exact B1|exact FB| |intros _ _; exact L1].
           intros _ X. rewrite formatted_ty in X. unfold goes in G. unfold becomes_space in B. apply andb_true_iff in B. destruct B as (B & _). apply andb_true_iff in B. destruct B as (B & _).
           rewrite B in G. cbn [is_of andb] in G. rewrite X, Nat.eqb_refl in G. discriminate G.
        -- rewrite (ws_leaf_formatted d WD BD). apply spaced_after; [exact BD|exact FB| |].
           ++ intros S X. rewrite formatted_ty in X. unfold goes in G. fold (soft d) in G. rewrite S in G. cbn [is_of andb] in G. rewrite X, Nat.eqb_refl in G. discriminate G.
           ++ intros X N. rewrite formatted_ty in X. unfold becomes_space in B. rewrite BD, N in B. cbn [negb andb is_of] in B. rewrite X, Nat.eqb_refl in B.
              cbn [orb] in B. rewrite andb_true_r in B. apply negb_false_iff, Nat.eqb_eq in B. exact B.
    + (* no whitespace between *)
      pose proof (formatted_blank d) as FD. rewrite BD in FD.
      destruct (needs_space c (Some d)) eqn:N; cbn [app].
      * destruct space_facts as (B1 & N1 & L1). pose proof (H2 [] c d r' eq_refl) as NC.
        unfold needs_space in N. apply orb_true_iff in N. rewrite !andb_true_iff, !Nat.eqb_eq in N.
        apply chain_cons; [apply chain_cons; [exact CR|]|].
        -- rewrite (fmts_hd_nonblank _ _ _ BD). apply spaced_before; [exact B1|exact FD| |intros _ _; exact L1]. rewrite formatted_ty. intros _ X. apply NC. right. split; [|exact X].
           destruct N as [((Y & _) & _)|((Y & _) & _)]; [exact Y|rewrite X in Y; discriminate Y].
        -- apply spaced_after; [exact B1|exact FB| |intros _ _; exact L1]. rewrite formatted_ty. intros _ X. apply NC. left. split; [exact X|].
           destruct N as [((Y & _) & _)|((Y & _) & _)]; [rewrite X in Y; discriminate Y|exact Y].
      * apply chain_cons; [exact CR|]. rewrite (fmts_hd_nonblank _ _ _ BD). destruct (needs_false c d N BC BD) as (A & B).
        apply spaced_direct; [exact FB|exact FD| |]; rewrite formatted_ty, formatted_nl; [exact A|exact B].
Qed.

Lemma fmts_members : forall l prev x, In x (fmts prev l) -> x = one_space \/ exists c, In c l /\ x = formatted c.
Proof.
  induction l as [|c r IH]; intros prev x J; [destruct J|]. cbn [fmts] in J. cbv zeta in J. apply in_app_or in J. destruct J as [J|J].
  - destruct (goes _ _ _); [destruct J|]. destruct (becomes_space _ _ _); [destruct J as [<-|[]]; left; reflexivity|].
    destruct J as [<-|J]; [right; exists c; split; [left; reflexivity|reflexivity]|]. destruct (needs_space _ _); [destruct J as [<-|[]]; left; reflexivity|destruct J].
  - destruct (IH _ _ J) as [->|(d & D & ->)]; [left; reflexivity|right; exists d; split; [right; exact D|reflexivity]].
Qed.

Lemma formatted_spaced : forall t, ws_leaves t -> calm t -> well_spaced (formatted t).
Proof.
  intros t. induction t as [ty s|ty cs F] using ltree_ind'; intros W C; [constructor|]. rewrite formatted_node.
  inversion W as [|ty' cs' NE WC E]; subst. inversion C as [|ty' cs' CC H1 H2 H3 E]; subst. constructor.
  - rewrite Forall_forall in *. intros x J. destruct (fmts_members _ _ _ J) as [->|(c & JC & ->)]; [constructor|]. exact (F c JC (WC c JC) (CC c JC)).
  - apply chain_split. apply fmts_chain; assumption.
Qed.

(** *** Checking the hypotheses on a concrete tree *)
Definition clash_b (a b : ltree) : bool := (l_ty a =? L_ANGLE) && (l_ty b =? PIPE) || (l_ty a =? PIPE) && (l_ty b =? R_ANGLE).
Fixpoint calm_list (l : list ltree) : bool :=
  match l with
  | a :: ((b :: r') as r) =>
      negb (is_blank a && is_blank b) && negb (clash_b a b) && (match r' with c :: _ => negb (is_blank b && clash_b a c) | [] => true end) && calm_list r
  | _ => true
  end.
Fixpoint calm_b (t : ltree) : bool :=
  match t with LLeaf _ _ => true | LNode ty cs => negb (ty =? F_WHITESPACE) && calm_list cs && forallb calm_b cs end.

Lemma clash_spec : forall a b, clash a b -> clash_b a b = true.
Proof. intros a b H. unfold clash_b. rewrite orb_true_iff, !andb_true_iff, !Nat.eqb_eq. exact H. Qed.

Lemma calm_list_spec : forall l, calm_list l = true ->
  (forall pre a b post, l = pre ++ a :: b :: post -> ~ (is_blank a = true /\ is_blank b = true)) /\
  (forall pre a b post, l = pre ++ a :: b :: post -> ~ clash a b) /\
  (forall pre a w b post, l = pre ++ a :: w :: b :: post -> is_blank w = true -> ~ clash a b).
Proof.
  induction l as [|x l IH]; intros H.
  - split; [|split]; intros [|? pre]; intros; discriminate.
  - assert (HL : calm_list l = true). { cbn [calm_list] in H. destruct l as [|y r]; [reflexivity|]. rewrite !andb_true_iff in H. exact (proj2 H). }
    destruct (IH HL) as (A & B & C). split; [|split].
    + intros [|z pre] a b post E; cbn [app] in E; injection E as -> ->; [|exact (A pre a b post eq_refl)]. intros (X & Y). cbn [calm_list] in H. rewrite X, Y in H. discriminate H.
    + intros [|z pre] a b post E; cbn [app] in E; injection E as -> ->; [|exact (B pre a b post eq_refl)]. intros X. cbn [calm_list] in H. rewrite (clash_spec _ _ X) in H.
      rewrite andb_false_r in H. discriminate H.
    + intros [|z pre] a w b post E BW; cbn [app] in E; injection E as -> ->; [|exact (C pre a w b post eq_refl BW)]. intros X. cbn [calm_list] in H. rewrite BW, (clash_spec _ _ X) in H.
      cbn [andb negb] in H. rewrite andb_false_r in H. discriminate H.
Qed.

Lemma calm_check : forall t, calm_b t = true -> calm t /\ ws_leaves t.
Proof.
  intros t. induction t as [ty s|ty cs F] using ltree_ind'; intros H; [split; constructor|]. cbn [calm_b] in H. rewrite !andb_true_iff, negb_true_iff, Nat.eqb_neq in H.
  destruct H as ((N & L) & C). rewrite forallb_forall in C. rewrite Forall_forall in F. destruct (calm_list_spec cs L) as (H1 & H2 & H3).
  split; constructor; try assumption; rewrite Forall_forall; intros c J; apply (F c J (C c J)).
Qed.
