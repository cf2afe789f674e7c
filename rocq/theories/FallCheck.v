(** Deciding the hypotheses of the analysis theorems for a concrete file. *)
From Coq Require Import List Arith Bool Lia Ascii String.
From Verif Require Import Base BaseFacts TextModel TextSpec TextProofs TreeModel TreeSpec TreeProofs SearchProofs FileEditSpec
  AnalysisModel AnalysisSpec FallLang.
Import ListNotations.
Open Scope list_scope.

(** The tree stored in a table. *)
Fixpoint read_tree (fuel : nat) (nodes : table) (i : nat) : tree :=
  match fuel with
  | 0 => Leaf 0 0
  | S fuel =>
      match nth_error nodes i with
      | None => Leaf 0 0
      | Some d =>
          match n_children d with
          | [] => Leaf (n_ty d) (rend (n_range d) - rstart (n_range d))
          | cs => Node (n_ty d) (map (read_tree fuel nodes) cs)
          end
      end
  end.
Definition tree_of (f : file) : tree := read_tree (List.length (f_nodes f)) (f_nodes f) 0.

Lemma wf_check : forall f T, f_nodes f = layout T None 0 0 -> tlen T = List.length (f_text f) -> wf_file f T.
Proof. intros f T E L. split; [rewrite E; apply layout_stores|exact L]. Qed.

Lemma ascii_aligned : forall s i, Forall (fun b => b < 128) s -> i <= List.length s -> aligned s i.
Proof.
  intros s i F L. unfold aligned. destruct (nth_error s i) as [b|] eqn:E.
  - right. right. exists b. split; [reflexivity|]. rewrite Forall_forall in F. specialize (F b (nth_error_In _ _ E)).
    unfold is_cont. apply andb_false_iff. left. apply Nat.leb_gt. exact F.
  - right. left. apply nth_error_None in E. lia.
Qed.

Lemma ascii_tree : forall f T, wf_file f T -> Forall (fun b => b < 128) (f_text f) -> char_tree (f_text f) T.
Proof.
  intros f T (_ & L) F i p par t A. apply AtG_At in A. apply AtG_bounds in A. cbn in A. split; apply ascii_aligned; try exact F; lia.
Qed.

(** ** Completeness *)
Section Complete.
  Variable f : file.

  Definition is_some {A} (o : option A) : bool := match o with Some _ => true | None => false end.

  Fixpoint enclosed (fuel n : nat) : bool :=
    match fuel with
    | 0 => false
    | S fuel => if ty f n =? SYN_RULE then true else match par f n with Some p => enclosed fuel p | None => false end
    end.

  Definition quoted (s : bytes) : bool :=
    match s with 39 :: r => match rev r with 39 :: _ => true | _ => false end | _ => false end.

  Definition node_complete (n : nat) : bool :=
    let t := ty f n in
    (if t =? REF_EXPR then is_some (ref_name f n) && enclosed (List.length (f_nodes f)) n else true)
    && (if existsb (Nat.eqb t) [CALL_EXPR; LEX_RULE; PARAMETER; ATTRIBUTE; AST_SELECTOR; AST_NODE_DEF; AST_CLASS_DEF; AST_TRAIT_DEF]
        then is_some (name_of f n) else true)
    && (if t =? SIMPLE_STRING then quoted (str f n) else true)
    && (if t =? SYN_RULE then match exprs f n with [] => false | _ => true end else true)
    && (if t =? METHOD_DEF then is_some (kid f AST_SELECTOR n) else true).

  Definition complete_b : bool := forallb node_complete (seq 0 (List.length (f_nodes f))).

  Lemma enclosed_spec : forall fuel n, enclosed fuel n = true -> exists r, enclosing_rule f n r.
  Proof.
    intros fuel. induction fuel as [|fuel IH]; intros n H; [discriminate H|]. cbn [enclosed] in H.
    destruct (ty f n =? SYN_RULE) eqn:E. { exists n. apply er_here. apply Nat.eqb_eq. exact E. }
    destruct (par f n) as [p|] eqn:P; [|discriminate H]. destruct (IH p H) as (r & R). exists r.
    apply er_up with (p := p); [apply Nat.eqb_neq; exact E|exact P|exact R].
  Qed.

  Lemma complete_check : complete_b = true -> complete f.
  Proof.
    intros H. unfold complete_b in H. rewrite forallb_forall in H.
    assert (N : forall n, valid f n -> node_complete n = true) by (intros n V; apply H; apply in_seq; unfold valid in V; lia).
    constructor.
    - intros n (V & E). specialize (N n V). unfold node_complete in N. rewrite E in N. rewrite !andb_true_iff in N. destruct N as ((((N & _) & _) & _) & _).
      rewrite Nat.eqb_refl in N. apply andb_true_iff in N. destruct N as (N & M). split; [|exact (enclosed_spec _ _ M)].
      destruct (ref_name f n); [discriminate|discriminate N].
    - intros n t I (V & E). specialize (N n V). unfold node_complete in N. rewrite E in N. rewrite !andb_true_iff in N. destruct N as ((((_ & N) & _) & _) & _).
      assert (X : existsb (Nat.eqb t) [CALL_EXPR; LEX_RULE; PARAMETER; ATTRIBUTE; AST_SELECTOR; AST_NODE_DEF; AST_CLASS_DEF; AST_TRAIT_DEF] = true).
      { apply existsb_exists. exists t. split; [exact I|apply Nat.eqb_refl]. }
      rewrite X in N. destruct (name_of f n); [discriminate|discriminate N].
    - intros n (V & E). specialize (N n V). unfold node_complete in N. rewrite E in N. rewrite !andb_true_iff in N. destruct N as (((_ & N) & _) & _).
      rewrite Nat.eqb_refl in N. unfold quoted in N.
      destruct (str f n) as [|x r]; [discriminate N|]. do 39 (destruct x as [|x]; [discriminate N|]). destruct x; [|discriminate N].
      destruct (rev r) as [|y r'] eqn:R; [discriminate N|]. do 39 (destruct y as [|y]; [discriminate N|]). destruct y; [|discriminate N].
      exists (rev r'). apply (f_equal (@rev nat)) in R. rewrite rev_involutive in R. rewrite R. reflexivity.
    - intros n (V & E). specialize (N n V). unfold node_complete in N. rewrite E in N. rewrite !andb_true_iff in N. destruct N as ((_ & N) & _).
      rewrite Nat.eqb_refl in N. destruct (exprs f n); [discriminate N|discriminate].
    - intros n (V & E). specialize (N n V). unfold node_complete in N. rewrite E in N. rewrite !andb_true_iff in N. destruct N as (_ & N).
      rewrite Nat.eqb_refl in N. destruct (kid f AST_SELECTOR n); [discriminate|discriminate N].
  Qed.
End Complete.

(** A file written down as text and parsed. *)
Ltac file_facts :=
  match goal with |- wf_file ?f ?T /\ char_tree (f_text ?f) ?T /\ complete ?f =>
    let W := fresh in
    assert (W : wf_file f T) by (apply wf_check; vm_compute; reflexivity);
    split; [exact W|split; [apply ascii_tree; [exact W|]|apply complete_check; vm_compute; reflexivity]];
    let F := fresh in assert (F : forallb (fun b => b <? 128) (f_text f) = true) by (vm_compute; reflexivity);
    let x := fresh in let J := fresh in
    apply Forall_forall; intros x J; apply Nat.ltb_lt; exact (proj1 (forallb_forall _ _) F x J)
  end.
