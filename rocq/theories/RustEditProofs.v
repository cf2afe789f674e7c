(** Proofs about the editor features for Rust files. *)
From Coq Require Import List Arith Bool Lia.
From Verif Require Import Base BaseFacts TextModel TextSpec TextProofs EditModel TreeModel TreeSpec TreeProofs SearchModel SearchSpec SearchProofs
  TraversalProofs FileEditModel FileEditSpec FileEditProofs EditorModel EditorSpec EditorProofs IndexModel AnalysisModel AnalysisSpec ViewProofs
  FallEditSpec FallEditProofs ExtractProofs RustEditModel RustEditSpec.
Import ListNotations.

(** ** Edits of one node *)
Lemma edited_inserted : forall s add c T pc qc tc, At T c pc qc tc -> tlen T = length s ->
  edited (fun _ => false) (fun _ => None) (fun j => if c =? j then Some add else None) s T 0 0
  = sub 0 (pc + tlen tc) s ++ add ++ sub (pc + tlen tc) (length s) s.
Proof.
  intros s add c T pc qc tc A L. set (ins := fun j => if c =? j then Some add else None).
  pose proof (proj2 (AtG_At _ _ _ _ _) A) as G. pose proof (AtG_bounds _ _ _ _ _ _ _ _ G) as BD. pose proof (tsize_pos tc) as TP.
  rewrite (edited_within s (fun _ => false) (fun _ => None) ins c T 0 0 None pc qc tc G ltac:(cbn; lia)).
  2:{ intros j J. split; [reflexivity|]. split; [reflexivity|]. unfold ins. destruct (c =? j) eqn:E; [apply Nat.eqb_eq in E; lia|reflexivity]. }
  assert (X : edited (fun _ => false) (fun _ => None) ins s tc c pc = edited (fun _ => false) (fun _ => None) (fun _ => None) s tc c pc ++ add).
  { assert (IR : ins c = Some add) by (unfold ins; rewrite Nat.eqb_refl; reflexivity).
    destruct tc as [ty n|ty ts].
    - cbn. rewrite IR, app_nil_r. reflexivity.
    - rewrite !edited_node, IR, app_nil_r. f_equal.
      assert (G' : forall l j q, (forall k, j <= k < j + tsizes l -> c <> k) -> editeds (fun _ => false) (fun _ => None) ins s l j q = editeds (fun _ => false) (fun _ => None) (fun _ => None) s l j q).
      { clear. induction l as [|x l IH]; intros j q H; [reflexivity|]. rewrite tsizes_cons in H. cbn [editeds]. rewrite IH by (intros k K; apply H; lia). f_equal.
        apply edited_local. intros k K. unfold ins. destruct (c =? k) eqn:E; [apply Nat.eqb_eq in E; exfalso; apply (H k); [lia|exact E]|reflexivity]. }
      apply G'. intros k K. lia. }
  rewrite X. rewrite edited_none; [|auto|lia]. cbn [plus]. rewrite <- !app_assoc, app_assoc, sub_app by lia. rewrite L. reflexivity.
Qed.

Lemma is_prefix_one : forall b (s : bytes), is_prefix [b] s = true <-> nth_error s 0 = Some b.
Proof.
  intros b [|x s]; cbn; [split; discriminate|]. rewrite andb_true_r, Nat.eqb_eq. split; [intros ->; reflexivity|intros E; injection E as ->; reflexivity].
Qed.

Section Proofs.
  Variable f : file.
  Variable T : tree.
  Hypothesis WF : wf_file f T.
  Hypothesis CT : char_tree (f_text f) T.
  Notation nodes := (f_nodes f).
  Let ST : stores nodes T := proj1 WF.

  Lemma replaced_node : forall n new, valid f n -> exists ops, into_text_edit f (fe_replace_with_text fe_new n new) = Ok ops /\
    apply ops (as_text (f_text f)) = Ok (sub 0 (rstart (rng f n)) (f_text f) ++ new ++ sub (rend (rng f n)) (length (f_text f)) (f_text f)).
  Proof.
    intros n new V. destruct (file_edit_ok f T (fe_replace_with_text fe_new n new) WF CT) as (ops & E1 & E2 & _). exists ops. split; [exact E1|]. rewrite E2. f_equal.
    destruct (valid_at f T WF n V) as (p & q & t & A & _). destruct (view_at f T WF _ _ _ _ A) as (_ & _ & _ & RR & _). rewrite RR. cbn [rstart rend]. unfold edit_result.
    rewrite (edited_ext _ _ _ _ (fun _ => false) (fun j => if n =? j then Some new else None) (fun _ => None)); try (intros j; reflexivity).
    etransitivity; [exact (edited_one (f_text f) new n T 0 0 None p q t (proj2 (AtG_At _ _ _ _ _) A) ltac:(rewrite (proj2 WF); cbn; lia))|]. rewrite (proj2 WF). reflexivity.
  Qed.

  Lemma inserted_after : forall n new, valid f n -> exists ops, into_text_edit f (fe_insert_text_after fe_new n new) = Ok ops /\
    apply ops (as_text (f_text f)) = Ok (sub 0 (rend (rng f n)) (f_text f) ++ new ++ sub (rend (rng f n)) (length (f_text f)) (f_text f)).
  Proof.
    intros n new V. destruct (file_edit_ok f T (fe_insert_text_after fe_new n new) WF CT) as (ops & E1 & E2 & _). exists ops. split; [exact E1|]. rewrite E2. f_equal.
    destruct (valid_at f T WF n V) as (p & q & t & A & _). destruct (view_at f T WF _ _ _ _ A) as (_ & _ & _ & RR & _). rewrite RR. cbn [rstart rend]. unfold edit_result.
    rewrite (edited_ext _ _ _ _ (fun _ => false) (fun _ => None) (fun j => if n =? j then Some new else None)); try (intros j; reflexivity).
    exact (edited_inserted (f_text f) new n T p q t A (proj2 WF)).
  Qed.

  (** ** Nodes around tokens *)
  Lemma innermost_fun : forall t n a b, innermost f t n a -> innermost f t n b -> a = b.
  Proof. intros t n a b (A1 & A2 & A3) (B1 & B2 & B3). apply (inside_antisym f T WF); auto. Qed.

  Lemma ancestor_ok : forall t n, valid f n -> exists o, ast_ancestor nodes (is_ty t) n = Ok o /\ forall a, o = Some a <-> innermost f t n a.
  Proof.
    intros t n V. unfold ast_ancestor. destruct (chain_ok f T WF n V) as (anc & EA & IA & SO). rewrite EA. cbn [bind].
    rewrite (filter_res_pure _ _ (fun m => ty f m =? t)).
    2:{ intros m J. apply IA in J. rewrite (ty_v f m (proj2 (inside_valid f T WF _ _ J))). reflexivity. }
    cbn [bind]. eexists. split; [reflexivity|].
    destruct (filter (fun m => ty f m =? t) anc) as [|x rest] eqn:F; cbn [hd_error].
    - intros a. split; [discriminate|]. intros (I & TY & _). assert (J : In a (filter (fun m => ty f m =? t) anc)) by (apply filter_In; split; [apply IA; exact I|apply Nat.eqb_eq; exact TY]).
      rewrite F in J. destruct J.
    - assert (X : innermost f t n x).
      { assert (J : In x (filter (fun m => ty f m =? t) anc)) by (rewrite F; left; reflexivity). apply filter_In in J. destruct J as (J & TY). apply Nat.eqb_eq in TY.
        split; [apply IA; exact J|]. split; [exact TY|]. intros b IB TB.
        assert (S : exists l1 l2, anc = l1 ++ x :: l2 /\ forall y, In y l1 -> ty f y =? t = false).
        { clear - F. revert F. induction anc as [|y anc IH]; intros F; [discriminate F|]. cbn [filter] in F. destruct (ty f y =? t) eqn:E.
          - injection F as -> _. exists [], anc. split; [reflexivity|]. intros z [].
          - destruct (IH F) as (l1 & l2 & -> & N). exists (y :: l1), l2. split; [reflexivity|]. intros z [<-|J]; auto. }
        destruct S as (l1 & l2 & S & N). apply (SO l1 x l2 S). apply IA in IB. rewrite S in IB. apply in_app_or in IB. destruct IB as [IB|IB]; [|exact IB].
        apply N in IB. apply Nat.eqb_neq in IB. congruence. }
      intros a. split; [intros E; injection E as <-; exact X|]. intros Y. f_equal. eapply innermost_fun; eauto.
  Qed.

  Lemma node_here_fun : forall t o a b, node_here f t o a -> node_here f t o b -> a = b.
  Proof.
    intros t o a b (n & A1 & A2 & A3) (m & B1 & B2 & B3). pose proof (A3 m b B1 B2). pose proof (B3 n a A1 A2). assert (n = m) by lia. subst m. eapply innermost_fun; eauto.
  Qed.

  Lemma node_at_ok : forall t o, o <= length (f_text f) -> exists x, ast_node_at_offset nodes (is_ty t) root o = Ok x /\ forall a, x = Some a <-> node_here f t o a.
  Proof.
    intros t o LE. destruct (leaf_result f T WF o LE) as (l & E & I & B). unfold ast_node_at_offset. rewrite E. cbn [bind]. destruct l as [|n|m n]; cbn [leaves_list] in I.
    - exists None. split; [reflexivity|]. intros a. split; [discriminate|]. intros (n & A & _). apply I in A. destruct A.
    - assert (TN : token_at f o n) by (apply I; left; reflexivity). destruct (ancestor_ok t n (proj1 TN)) as (x & EX & X). exists x. split; [exact EX|]. intros a. rewrite X. split.
      + intros Y. exists n. split; [exact TN|]. split; [exact Y|]. intros m b Z _. apply I in Z. destruct Z as [<-|[]]. lia.
      + intros (m & A & Y & _). apply I in A. destruct A as [<-|[]]. exact Y.
    - specialize (B m n eq_refl). assert (TM : token_at f o m) by (apply I; left; reflexivity). assert (TN : token_at f o n) by (apply I; right; left; reflexivity).
      destruct (ancestor_ok t m (proj1 TM)) as (x & EX & X). destruct (ancestor_ok t n (proj1 TN)) as (y & EY & Y). rewrite EX. cbn [bind]. destruct x as [a|].
      + pose proof (proj1 (X a) eq_refl) as IA. exists (Some a). split; [reflexivity|].
        assert (H : node_here f t o a). { exists m. split; [exact TM|]. split; [exact IA|]. intros k b K _. apply I in K. destruct K as [<-|[<-|[]]]; lia. }
        intros b. split; [intros Q; injection Q as <-; exact H|]. intros Q. f_equal. eapply node_here_fun; eauto.
      + exists y. split; [exact EY|]. intros a. rewrite Y. split.
        * intros Q. exists n. split; [exact TN|]. split; [exact Q|]. intros k b K KB. apply I in K. destruct K as [<-|[<-|[]]]; [|lia]. apply X in KB. discriminate KB.
        * intros (k & K & Q & _). apply I in K. destruct K as [<-|[<-|[]]]; [|exact Q]. apply X in Q. discriminate Q.
  Qed.

  Lemma here_valid : forall t o a, node_here f t o a -> valid f a.
  Proof. intros t o a (n & _ & (I & _) & _). exact (proj2 (inside_valid f T WF _ _ I)). Qed.

  Lemma token_left_fun : forall o a b, token_left f o a -> token_left f o b -> a = b.
  Proof. intros o a b (A1 & A2) (B1 & B2). apply A2 in B1. apply B2 in A1. lia. Qed.

  Lemma left_ok : forall o, o <= length (f_text f) -> exists l, find_leaf_at_offset nodes root o = Ok l /\ forall n, left_biased l = Some n <-> token_left f o n.
  Proof.
    intros o LE. destruct (leaf_result f T WF o LE) as (l & E & I & B). exists l. split; [exact E|].
    assert (H : match left_biased l with Some n => token_left f o n | None => forall n, ~ token_left f o n end).
    { destruct l as [|n|a b]; cbn [left_biased leaves_list] in *.
      - intros n (X & _). apply I in X. destruct X.
      - split; [apply I; left; reflexivity|]. intros m X. apply I in X. destruct X as [<-|[]]. lia.
      - split; [apply I; left; reflexivity|]. intros m X. apply I in X. specialize (B a b eq_refl). destruct X as [<-|[<-|[]]]; lia. }
    intros n. destruct (left_biased l) as [m|].
    - split; [intros Q; injection Q as <-; exact H|]. intros Q. f_equal. eapply token_left_fun; eauto.
    - split; [discriminate|]. intros Q. destruct (H n Q).
  Qed.

  Lemma rust_name_v : forall n, valid f n -> rust_name f n = Ok (rs_name f n).
  Proof.
    intros n V. unfold rust_name, rs_name. rewrite (child_of_type_v f T WF RS_IDENT n V). cbn [bind]. destruct (kid f RS_IDENT n) as [c|] eqn:E; [|reflexivity].
    rewrite (text_v f T WF CT c (kid_valid f T WF _ _ _ E)). reflexivity.
  Qed.

  (** ** Add braces *)
  Lemma bare_fun : forall o s s', bare_segment f o s -> bare_segment f o s' -> s = s'.
  Proof.
    intros o s s' (u & p & H & P & S & _) (u' & p' & H' & P' & S' & _). rewrite (node_here_fun _ _ _ _ H H') in P. rewrite P in P'. injection P' as <-. congruence.
  Qed.

  Lemma add_braces_ok : forall o, o <= length (f_text f) ->
    (exists s ops, bare_segment f o s /\ add_use_braces f o false = Ok (Some Available) /\ add_use_braces f o true = Ok (Some (Applied ops))
       /\ apply ops (as_text (f_text f)) = Ok (braced f s))
    \/ ((forall s, ~ bare_segment f o s) /\ add_use_braces f o false = Ok None /\ add_use_braces f o true = Ok None).
  Proof.
    intros o LE. unfold add_use_braces. destruct (node_at_ok RS_USE_DECL o LE) as (x & -> & X). cbn [bind]. destruct x as [u|].
    2:{ right. split; [|auto]. intros s (u & p & H & _). apply X in H. discriminate H. }
    pose proof (proj1 (X u) eq_refl) as H. pose proof (here_valid _ _ _ H) as VU.
    assert (FU : forall u', node_here f RS_USE_DECL o u' -> u' = u) by (intros u' H'; exact (node_here_fun _ _ _ _ H' H)).
    rewrite (ast_child_v f T WF RS_PATH u VU). cbn [bind]. destruct (kid f RS_PATH u) as [p|] eqn:P.
    2:{ right. split; [|auto]. intros s (u' & p & H' & P' & _). rewrite (FU _ H') in P'. congruence. }
    rewrite (ast_child_v f T WF RS_PATH_SEGMENT p (kid_valid f T WF _ _ _ P)). cbn [bind]. destruct (kid f RS_PATH_SEGMENT p) as [s|] eqn:S.
    2:{ right. split; [|auto]. intros s (u' & p' & H' & P' & S' & _). rewrite (FU _ H') in P'. congruence. }
    rewrite (ast_child_v f T WF RS_USE_SPEC u VU). cbn [bind]. destruct (kid f RS_USE_SPEC u) as [c|] eqn:C.
    { right. split; [|auto]. intros s' (u' & p' & H' & P' & S' & C'). rewrite (FU _ H') in C'. congruence. }
    left. pose proof (kid_valid f T WF _ _ _ S) as VS. destruct (replaced_node s ([123] ++ str f s ++ [125]) VS) as (ops & E & A). exists s, ops.
    split; [exists u, p; auto|]. split; [reflexivity|]. cbn [negb]. rewrite (text_v f T WF CT s VS). cbn [bind]. rewrite E. cbn [bind]. split; [reflexivity|].
    rewrite A. unfold braced. rewrite <- !app_assoc. reflexivity.
  Qed.

  (** ** Add impl *)

  (** Every parameter in the list has its name. *)
  Definition named_params : Prop :=
    (forall n, is_a f RS_TYPE_PARAMETER n -> rs_name f n <> None) /\ (forall n, is_a f RS_LIFETIME_PARAMETER n -> kid f RS_LIFETIME n <> None).

  Lemma join_listing : forall l, listing l (join_commas l).
  Proof.
    induction l as [|x l IH]; [constructor|]. cbn [join_commas]. destruct l as [|y l]; constructor. exact IH.
  Qed.
  Lemma listing_fun : forall l a b, listing l a -> listing l b -> a = b.
  Proof.
    intros l a b H. revert b. induction H as [|x|x y l s H IH]; intros b K; inversion K; subst; auto. f_equal. f_equal. auto.
  Qed.

  Lemma names_res : forall (g : nat -> res bytes) (Q : nat -> bytes -> Prop) l, (forall x, In x l -> exists s, g x = Ok s /\ Q x s) ->
    exists ss, flat_map_res (fun x => s <- g x ;; Ok [s]) l = Ok ss /\ Forall2 Q l ss.
  Proof.
    intros g Q l. induction l as [|x l IH]; intros H; [exists []; split; [reflexivity|constructor]|].
    destruct (H x (or_introl eq_refl)) as (s & E & QS). destruct (IH (fun y J => H y (or_intror J))) as (ss & EE & QQ). cbn [flat_map_res]. rewrite E. cbn [bind]. rewrite EE. cbn [bind].
    exists (s :: ss). split; [reflexivity|]. constructor; auto.
  Qed.

  Lemma generics_fun : forall d a b a' b', generics f d a b -> generics f d a' b' -> a = a' /\ b = b'.
  Proof.
    intros d a b a' b' G G'. inversion G as [K|p ls ts lx tx s K EL ET FL FT LI]; inversion G' as [K'|p' ls' ts' lx' tx' s' K' EL' ET' FL' FT' LI']; subst; auto; try congruence.
    rewrite K in K'. injection K' as <-. split; [reflexivity|].
    assert (U : forall (Q : nat -> bytes -> Prop), (forall n x y, Q n x -> Q n y -> x = y) -> forall l x y, Forall2 Q l x -> Forall2 Q l y -> x = y).
    { intros Q QF l x y F. revert y. induction F as [|n u l x QU F IH]; intros y F'; inversion F'; subst; [reflexivity|]. f_equal; eauto. }
    assert (UL : lx = lx') by (apply (U (fun l x => exists m, kid f RS_LIFETIME l = Some m /\ str f m = x)) with (l := kids_of f RS_LIFETIME_PARAMETER p); auto; intros n x y (m & E & <-) (m' & E' & <-); congruence).
    assert (UT : tx = tx') by (apply (U (fun t x => rs_name f t = Some x)) with (l := kids_of f RS_TYPE_PARAMETER p); auto; intros n x y E E'; congruence).
    subst lx' tx'.
    rewrite (listing_fun _ _ _ LI LI'). reflexivity.
  Qed.

  Lemma add_impl_for_ok : forall t o, named_params -> o <= length (f_text f) ->
    (exists d name head tail ops, node_here f t o d /\ rs_name f d = Some name /\ generics f d head tail
       /\ add_impl_for f t o false = Ok (Some Available) /\ add_impl_for f t o true = Ok (Some (Applied ops))
       /\ apply ops (as_text (f_text f)) = Ok (with_impl f d name head tail))
    \/ ((forall d, node_here f t o d -> rs_name f d = None) /\ add_impl_for f t o false = Ok None /\ add_impl_for f t o true = Ok None).
  Proof.
    intros t o (NT & NL) LE. unfold add_impl_for. destruct (node_at_ok t o LE) as (x & -> & X). cbn [bind]. destruct x as [d|].
    2:{ right. split; [|auto]. intros d H. apply X in H. discriminate H. }
    pose proof (proj1 (X d) eq_refl) as H. pose proof (here_valid _ _ _ H) as VD. rewrite (rust_name_v d VD). cbn [bind]. destruct (rs_name f d) as [name|] eqn:N.
    2:{ right. split; [|auto]. intros d' H'. rewrite (node_here_fun _ _ _ _ H' H). exact N. }
    left. cbn [negb]. rewrite (ast_child_v f T WF RS_TYPE_PARAMETERS d VD). cbn [bind]. destruct (kid f RS_TYPE_PARAMETERS d) as [p|] eqn:P.
    - pose proof (kid_valid f T WF _ _ _ P) as VP. rewrite (text_v f T WF CT p VP). cbn [bind]. unfold param_names.
      rewrite (children_is_v f T WF RS_LIFETIME_PARAMETER p VP). cbn [bind]. rewrite (children_is_v f T WF RS_TYPE_PARAMETER p VP). cbn [bind].
      destruct (names_res (fun lf => child_text f lf RS_LIFETIME) (fun l x => exists m, kid f RS_LIFETIME l = Some m /\ str f m = x) (kids_of f RS_LIFETIME_PARAMETER p)) as (lx & EL & FL).
      { intros l J. pose proof (proj2 (kids_of_in f T WF _ _ _ J)) as IL. rewrite (child_text_v f T WF CT RS_LIFETIME l (proj1 IL)). pose proof (NL l IL) as K.
        destruct (kid f RS_LIFETIME l) as [m|]; [|congruence]. exists (str f m). split; [reflexivity|]. exists m. auto. }
      rewrite EL. cbn [bind].
      destruct (names_res (fun t => o <- rust_name f t ;; unwrap o) (fun t x => rs_name f t = Some x) (kids_of f RS_TYPE_PARAMETER p)) as (tx & ET & FT).
      { intros l J. pose proof (proj2 (kids_of_in f T WF _ _ _ J)) as IL. rewrite (rust_name_v l (proj1 IL)). cbn [bind]. pose proof (NT l IL) as K.
        destruct (rs_name f l) as [m|]; [|congruence]. exists m. split; reflexivity. }
      assert (ET' : flat_map_res (fun t => o <- rust_name f t ;; s <- unwrap o ;; Ok [s]) (kids_of f RS_TYPE_PARAMETER p) = Ok tx).
      { rewrite <- ET. clear. induction (kids_of f RS_TYPE_PARAMETER p) as [|y l IH]; [reflexivity|]. cbn [flat_map_res]. rewrite IH. destruct (rust_name f y) as [z| |]; reflexivity. }
      rewrite ET'. cbn [bind].
      destruct (inserted_after d ([10; 10] ++ s_impl ++ str f p ++ [32] ++ name ++ ([60] ++ join_commas (lx ++ tx) ++ [62]) ++ [32; 123; 10; 10; 125]) VD) as (ops & E & A).
      exists d, name, (str f p), ([60] ++ join_commas (lx ++ tx) ++ [62]), ops. split; [exact H|]. split; [exact N|]. split.
      { apply (gn_some f d p (kids_of f RS_LIFETIME_PARAMETER p) (kids_of f RS_TYPE_PARAMETER p) lx tx); auto. apply join_listing. }
      split; [reflexivity|]. rewrite E. cbn [bind]. split; [reflexivity|]. rewrite A. unfold with_impl. rewrite <- !app_assoc. reflexivity.
    - cbn [bind]. destruct (inserted_after d ([10; 10] ++ s_impl ++ [] ++ [32] ++ name ++ [] ++ [32; 123; 10; 10; 125]) VD) as (ops & E & A).
      exists d, name, [], [], ops. split; [exact H|]. split; [exact N|]. split; [constructor; exact P|].
      split; [reflexivity|]. rewrite E. cbn [bind]. split; [reflexivity|]. rewrite A. unfold with_impl. rewrite <- !app_assoc. reflexivity.
  Qed.

  Lemma type_here_fun : forall o d n d' n', type_here f o d n -> type_here f o d' n' -> d = d' /\ n = n'.
  Proof.
    intros o d n d' n' [(H & N)|(S & H & N)] [(H' & N')|(S' & H' & N')].
    - rewrite (node_here_fun _ _ _ _ H H') in *. split; [reflexivity|congruence].
    - rewrite (S' d H) in N. discriminate N.
    - rewrite (S d' H') in N'. discriminate N'.
    - rewrite (node_here_fun _ _ _ _ H H') in *. split; [reflexivity|congruence].
  Qed.

  Lemma add_impl_ok : forall o, named_params -> o <= length (f_text f) ->
    (exists d name head tail ops, type_here f o d name /\ generics f d head tail
       /\ add_impl f o false = Ok (Some Available) /\ add_impl f o true = Ok (Some (Applied ops))
       /\ apply ops (as_text (f_text f)) = Ok (with_impl f d name head tail))
    \/ ((forall d name, ~ type_here f o d name) /\ add_impl f o false = Ok None /\ add_impl f o true = Ok None).
  Proof.
    intros o NP LE. unfold add_impl. destruct (add_impl_for_ok RS_STRUCT_DEF o NP LE) as [(d & name & h & t & ops & H & N & G & E1 & E2 & A)|(N & E1 & E2)]; rewrite E1, E2; cbn [bind].
    - left. exists d, name, h, t, ops. split; [left; auto|]. auto.
    - destruct (add_impl_for_ok RS_ENUM_DEF o NP LE) as [(d & name & h & t & ops & H' & N' & G & F1 & F2 & A)|(N' & F1 & F2)]; rewrite F1, F2.
      + left. exists d, name, h, t, ops. split; [right; auto|]. auto.
      + right. split; [|auto]. intros d name [(H & X)|(_ & H & X)]; [rewrite (N d H) in X|rewrite (N' d H) in X]; discriminate X.
  Qed.

  (** ** Typing a space *)
  Lemma space_ok : forall o, 1 <= o -> o - 1 <= length (f_text f) ->
    (let_begun f o /\ after_space_typed f o = Ok (Some [59])) \/ (~ let_begun f o /\ after_space_typed f o = Ok None).
  Proof.
    intros o L1 LE. unfold after_space_typed, usub. replace (1 <=? o) with true by (symmetry; apply Nat.leb_le; exact L1). cbn [bind].
    destruct (left_ok (o - 1) LE) as (l & -> & H). cbn [bind]. destruct (left_biased l) as [n|].
    2:{ right. split; [|reflexivity]. intros (n & s & X & _). apply H in X. discriminate X. }
    pose proof (proj1 (H n) eq_refl) as TL. pose proof (proj1 (proj1 TL)) as V. rewrite (ty_v f n V). cbn [bind].
    assert (FN : forall m, token_left f (o - 1) m -> m = n) by (intros m M; exact (token_left_fun _ _ _ M TL)).
    destruct (ty f n =? RS_LET) eqn:TY; cbn [negb].
    2:{ right. split; [|reflexivity]. intros (m & s & X & Y & _). rewrite (FN m X) in Y. apply Nat.eqb_neq in TY. contradiction. }
    apply Nat.eqb_eq in TY. destruct (ancestor_ok RS_LET_STMT n V) as (x & -> & X). cbn [bind]. destruct x as [s|].
    2:{ right. split; [|reflexivity]. intros (m & s & Y & _ & Z & _). rewrite (FN m Y) in Z. apply X in Z. discriminate Z. }
    pose proof (proj1 (X s) eq_refl) as IM. pose proof (proj2 (inside_valid f T WF _ _ (proj1 IM))) as VS. rewrite (kids_v f s VS). cbn [bind].
    rewrite (filter_res_pure _ _ (fun c => (ty f c =? RS_SEMI) || (ty f c =? RS_EQ))).
    2:{ intros c J. rewrite (ty_v f c (kids_valid f T WF _ _ J)). reflexivity. }
    cbn [bind]. destruct (filter (fun c => (ty f c =? RS_SEMI) || (ty f c =? RS_EQ)) (kids f s)) as [|c rest] eqn:F.
    2:{ right. split; [|reflexivity]. intros (m & s' & Y & _ & Z & K & _). rewrite (FN m Y) in Z. rewrite (innermost_fun _ _ _ _ Z IM) in K.
        assert (J : In c (filter (fun c => (ty f c =? RS_SEMI) || (ty f c =? RS_EQ)) (kids f s))) by (rewrite F; left; reflexivity). apply filter_In in J. destruct J as (J & Q).
        apply orb_true_iff in Q. rewrite !Nat.eqb_eq in Q. destruct (K c J). tauto. }
    rewrite (rng_v f s VS). cbn [bind]. pose proof (rng_in f T WF s VS) as RI. destruct (range_aligned f T WF CT s VS) as (_ & AE).
    assert (AL : aligned (f_text f) (length (f_text f))) by (pose proof (range_aligned f T WF CT 0 (root_valid f T WF)) as R0; rewrite (root_range f T WF) in R0; exact (proj2 R0)).
    unfold slice_suffix. rewrite text_len_ok by apply as_text_wf. rewrite as_text_bytes. cbn [bind]. rewrite from_to_ok by lia. cbn [bind].
    destruct (slice_as_str (f_text f) (rend (rng f s)) (length (f_text f)) ltac:(lia) AE AL) as (t & -> & ET). cbn [bind]. unfold starts_with. rewrite ET. cbn [bind].
    assert (PX : is_prefix [59] (sub (rend (rng f s)) (length (f_text f)) (f_text f)) = true <-> nth_error (f_text f) (rend (rng f s)) = Some 59).
    { rewrite is_prefix_one. unfold sub. rewrite firstn_all2 by (rewrite skipn_length; lia).
      clear. generalize (rend (rng f s)). generalize (f_text f). intros b. induction b as [|x b IH]; intros [|e]; cbn [skipn]; try (split; discriminate); try reflexivity. exact (IH e). }
    assert (NK : forall c, In c (kids f s) -> ty f c <> RS_SEMI /\ ty f c <> RS_EQ).
    { intros c J. destruct ((ty f c =? RS_SEMI) || (ty f c =? RS_EQ)) eqn:Q.
      - assert (J' : In c (filter (fun c => (ty f c =? RS_SEMI) || (ty f c =? RS_EQ)) (kids f s))) by (apply filter_In; auto). rewrite F in J'. destruct J'.
      - apply orb_false_iff in Q. rewrite !Nat.eqb_neq in Q. exact Q. }
    destruct (is_prefix [59] (sub (rend (rng f s)) (length (f_text f)) (f_text f))) eqn:PF.
    - right. split; [|reflexivity]. intros (m & s' & Y & _ & Z & _ & K). rewrite (FN m Y) in Z. rewrite (innermost_fun _ _ _ _ Z IM) in K. apply K. apply PX. reflexivity.
    - left. split; [|reflexivity]. exists n, s. split; [exact TL|]. split; [exact TY|]. split; [exact IM|]. split; [exact NK|]. intros Q. apply PX in Q. discriminate Q.
  Qed.

  (** ** Expanding a statement *)
  Lemma slice_unaligned : forall b i j, i <= j -> j <= length b -> ~ aligned b j -> exists t, slice (as_text b) (mkRange i j) = Ok t /\ as_str t = Panic.
  Proof.
    intros b i j IJ JL NA. unfold slice. rewrite text_len_ok by apply as_text_wf. rewrite as_text_bytes. cbn [bind rstart rend trange as_text].
    replace (j <=? length b) with true by (symmetry; apply Nat.leb_le; lia). cbn [guard]. replace (0 + i <=? length b) with true by (symmetry; apply Nat.leb_le; lia). cbn [guard].
    unfold usub. replace (i <=? j) with true by (symmetry; apply Nat.leb_le; lia). cbn [bind]. rewrite from_to_ok by lia. cbn [bind]. eexists. split; [reflexivity|].
    unfold as_str, str_index. cbn [trange owned rstart rend as_text]. replace (0 + i + (j - i)) with j by lia. destruct (0 + i <=? j); [|reflexivity]. cbn [guard].
    destruct (is_char_boundary b j) eqn:Q; [|rewrite andb_false_r; reflexivity]. destruct NA. apply boundary_spec. exact Q.
  Qed.

  Lemma stmt_fun : forall o s s', stmt_here f o s -> stmt_here f o s' -> s = s'.
  Proof. intros o s s' (n & A & B) (m & C & D). rewrite (token_left_fun _ _ _ A C) in B. eapply innermost_fun; eauto. Qed.

  Lemma expand_ok : forall o, 2 <= o -> o <= length (f_text f) -> aligned (f_text f) o ->
    ((forall s, ~ stmt_here f o s) /\ expand f o = Ok None)
    \/ (exists s, stmt_here f o s /\
         ((rstart (rng f s) + 3 <= rend (rng f s) -> aligned (f_text f) (rend (rng f s) - 3) ->
             exists ops, expand f o = Ok (Some ops) /\ apply ops (as_text (f_text f)) = Ok (printed f o s))
          /\ (rend (rng f s) < rstart (rng f s) + 3 \/ ~ aligned (f_text f) (rend (rng f s) - 3) -> expand f o = Panic))).
  Proof.
    intros o L2 LE AO. unfold expand, usub. replace (2 <=? o) with true by (symmetry; apply Nat.leb_le; exact L2). cbn [bind].
    destruct (left_ok (o - 2) ltac:(lia)) as (l & -> & H). cbn [bind]. destruct (left_biased l) as [n|].
    2:{ left. split; [|reflexivity]. intros s (n & X & _). apply H in X. discriminate X. }
    pose proof (proj1 (H n) eq_refl) as TL. pose proof (proj1 (proj1 TL)) as V. destruct (ancestor_ok RS_EXPR_STMT n V) as (x & -> & X). cbn [bind]. destruct x as [s|].
    2:{ left. split; [|reflexivity]. intros s (m & Y & Z). rewrite (token_left_fun _ _ _ Y TL) in Z. apply X in Z. discriminate Z. }
    pose proof (proj1 (X s) eq_refl) as IM. pose proof (proj2 (inside_valid f T WF _ _ (proj1 IM))) as VS. right. exists s. split; [exists n; auto|].
    rewrite (rng_v f s VS). cbn [bind]. destruct (range_aligned f T WF CT s VS) as (AS & _). pose proof (rng_in f T WF s VS) as RI.
    assert (SO : rstart (rng f s) <= o). { destruct (inside_range f T WF _ _ (proj1 IM)) as (R & _). destruct TL as ((_ & _ & _ & R' & _) & _). lia. }
    split.
    - intros L3 A3. replace (3 <=? rend (rng f s)) with true by (symmetry; apply Nat.leb_le; lia). cbn [bind]. rewrite from_to_ok by lia. cbn [bind].
      destruct (slice_as_str (f_text f) (rstart (rng f s)) (rend (rng f s) - 3) ltac:(lia) AS A3) as (t & -> & ET). cbn [bind]. rewrite from_to_ok by exact SO. cbn [bind]. rewrite ET. cbn [bind].
      set (e := sub (rstart (rng f s)) (rend (rng f s) - 3) (f_text f)).
      destruct (replace_substring_ok f T (mkRange (rstart (rng f s)) o) (s_eprintln ++ e ++ s_value ++ e ++ [41; 59]) WF CT SO LE AS AO) as (fe & ops & E1 & E2 & A).
      rewrite E1. cbn [bind]. rewrite E2. cbn [bind]. exists ops. split; [reflexivity|]. rewrite A. unfold printed. fold e. cbn [rstart rend]. rewrite <- !app_assoc. reflexivity.
    - intros LT. destruct (Nat.le_gt_cases (rstart (rng f s) + 3) (rend (rng f s))) as [L3|L3].
      { destruct LT as [LT|LT]; [lia|]. replace (3 <=? rend (rng f s)) with true by (symmetry; apply Nat.leb_le; lia). cbn [bind]. rewrite from_to_ok by lia. cbn [bind].
        destruct (slice_unaligned (f_text f) (rstart (rng f s)) (rend (rng f s) - 3) ltac:(lia) ltac:(lia) LT) as (t & -> & ET). cbn [bind]. rewrite from_to_ok by exact SO. cbn [bind]. rewrite ET. reflexivity. }
      clear LT. rename L3 into LT. destruct (3 <=? rend (rng f s)) eqn:Q; cbn [bind]; [|reflexivity]. apply Nat.leb_le in Q. unfold from_to at 1.
      replace (rstart (rng f s) <=? rend (rng f s) - 3) with false by (symmetry; apply Nat.leb_gt; lia). reflexivity.
  Qed.

  (** ** Breadcrumbs *)
  Lemma path_ok : forall fuel n, valid f n -> n < fuel -> exists l, ancestors_fuel fuel nodes n = Ok l /\ path_to f n (rev l) /\ forall a, In a l -> valid f a.
  Proof.
    induction fuel as [|fuel IH]; intros n V LT; [lia|]. cbn [ancestors_fuel]. rewrite (par_v f n V). cbn [bind]. destruct (par f n) as [q|] eqn:P.
    - destruct (par_in f T WF n q V P) as (VQ & LQ & IN). destruct (IH q VQ ltac:(lia)) as (l & -> & PL & VL). cbn [bind]. exists (n :: l). split; [reflexivity|].
      split; [cbn [rev]; exact (pt_down f q n (rev l) PL IN)|]. intros a [<-|J]; auto.
    - exists [n]. split; [reflexivity|]. assert (n = 0).
      { destruct (valid_at f T WF n V) as (p & q & t & A & _). destruct (view_at f T WF _ _ _ _ A) as (_ & _ & PE & _). rewrite P in PE. subst q. inversion A; reflexivity. }
      subst n. split; [constructor|]. intros a [<-|[]]. exact V.
  Qed.

  Lemma crumb_ok : forall n, valid f n -> exists c, crumb f n = Ok c /\ crumb_of f n c /\ rev c = c.
  Proof.
    intros n V. unfold crumb. rewrite (ty_v f n V). cbn [bind]. rewrite (rust_name_v n V).
    destruct (ty f n =? RS_STRUCT_DEF) eqn:E1; [|destruct (ty f n =? RS_ENUM_DEF) eqn:E2; [|destruct (ty f n =? RS_TRAIT_DEF) eqn:E3; [|destruct (ty f n =? RS_FN_DEF) eqn:E4; [|destruct (ty f n =? RS_IMPL_DEF) eqn:E5]]]].
    1-4: cbn [bind]; destruct (rs_name f n) as [s|] eqn:N; eexists; (split; [reflexivity|]); (split; [|reflexivity]);
      repeat match goal with H : (_ =? _) = true |- _ => apply Nat.eqb_eq in H end;
      first [apply cr_struct; assumption|apply cr_enum; assumption|apply cr_trait; assumption|apply cr_fn; assumption|apply cr_unnamed; [cbn [In]; intuition|exact N]].
    - apply Nat.eqb_eq in E5. rewrite (children_is_v f T WF RS_TYPE_REFERENCE n V). cbn [bind].
      assert (VK : forall x, In x (kids_of f RS_TYPE_REFERENCE n) -> valid f x) by (intros x J; exact (proj1 (proj2 (kids_of_in f T WF _ _ _ J)))).
      destruct (kids_of f RS_TYPE_REFERENCE n) as [|a [|b l]] eqn:K.
      + exists []. split; [reflexivity|]. split; [apply cr_untyped; assumption|reflexivity].
      + rewrite (text_v f T WF CT a (VK a (or_introl eq_refl))). cbn [bind]. eexists. split; [reflexivity|]. split; [apply cr_impl; assumption|reflexivity].
      + rewrite (text_v f T WF CT a (VK a (or_introl eq_refl))). cbn [bind]. rewrite (text_v f T WF CT b (VK b (or_intror (or_introl eq_refl)))). cbn [bind]. eexists.
        split; [reflexivity|]. split; [eapply cr_impl_for; eassumption|reflexivity].
    - exists []. split; [reflexivity|]. split; [|reflexivity]. apply cr_other. rewrite Nat.eqb_neq in *. cbn [In]. intuition congruence.
  Qed.

  Lemma crumbs_ok : forall l, (forall a, In a l -> valid f a) -> exists cs, flat_map_res (crumb f) l = Ok (concat cs) /\ Forall2 (crumb_of f) (rev l) (rev cs) /\ rev (concat cs) = concat (rev cs).
  Proof.
    induction l as [|x l IH]; intros V; [exists []; split; [reflexivity|]; split; [constructor|reflexivity]|].
    destruct (crumb_ok x (V x (or_introl eq_refl))) as (c & E & C & R). destruct (IH (fun y J => V y (or_intror J))) as (cs & EE & F & RR).
    exists (c :: cs). cbn [flat_map_res]. rewrite E. cbn [bind]. rewrite EE. cbn [bind]. split; [reflexivity|]. cbn [rev concat]. split.
    - apply Forall2_app; [exact F|]. constructor; [exact C|constructor].
    - rewrite rev_app_distr, RR, R, concat_app. cbn [concat]. rewrite app_nil_r. reflexivity.
  Qed.

  Lemma breadcrumbs_ok : forall o, 1 <= o -> o - 1 <= length (f_text f) ->
    (exists n l cs, token_left f (o - 1) n /\ path_to f n l /\ Forall2 (crumb_of f) l cs /\ breadcrumbs f o = Ok (concat cs))
    \/ ((forall n, ~ token_left f (o - 1) n) /\ breadcrumbs f o = Ok []).
  Proof.
    intros o L1 LE. unfold breadcrumbs, usub. replace (1 <=? o) with true by (symmetry; apply Nat.leb_le; exact L1). cbn [bind].
    destruct (left_ok (o - 1) LE) as (l & -> & H). cbn [bind]. destruct (left_biased l) as [n|].
    2:{ right. split; [|reflexivity]. intros n X. apply H in X. discriminate X. }
    left. pose proof (proj1 (H n) eq_refl) as TL. pose proof (proj1 (proj1 TL)) as V. unfold ancestors. destruct (path_ok (length nodes) n V V) as (anc & -> & PA & VA). cbn [bind].
    destruct (crumbs_ok anc VA) as (cs & -> & F & R). cbn [bind]. exists n, (rev anc), (rev cs). split; [exact TL|]. split; [exact PA|]. split; [exact F|]. rewrite R. reflexivity.
  Qed.

  Lemma path_fun : forall n l l', path_to f n l -> path_to f n l' -> l = l'.
  Proof.
    intros n l l' H. revert l'. induction H as [|p n l H IH J]; intros l' H'; inversion H' as [|p' n' l2 H2 J2]; subst; auto.
    - destruct (kids_in f T WF _ _ J2) as (_ & E). rewrite (par_root f T WF) in E. discriminate E.
    - destruct (kids_in f T WF _ _ J) as (_ & E). rewrite (par_root f T WF) in E. discriminate E.
    - destruct (kids_in f T WF _ _ J) as (_ & E). destruct (kids_in f T WF _ _ J2) as (_ & E2). rewrite E in E2. injection E2 as <-. f_equal. auto.
  Qed.

  (** ** The outline *)
  Lemma post_list : forall t n p q, At T n p q t -> bottom_up_list f n (post t n).
  Proof.
    apply (tree_ind' (fun t => forall n p q, At T n p q t -> bottom_up_list f n (post t n))).
    - intros y k n p q A. cbn [post]. destruct (view_at f T WF _ _ _ _ A) as (_ & _ & _ & _ & K). apply (bl_node f n []). rewrite K. constructor.
    - intros y ts F n p q A.
      assert (G : forall a b, ts = a ++ b -> exists ls, Forall2 (bottom_up_list f) (child_ids (S n + tsizes a) b) ls /\
        (fix go (ts : list tree) (i : nat) : list nat := match ts with [] => [] | t :: r => post t i ++ go r (i + tsize t) end) b (S n + tsizes a) = concat ls).
      { intros a b. revert a. induction b as [|x b IH]; intros a E; [exists []; split; [constructor|reflexivity]|].
        destruct (IH (a ++ [x])) as (ls & F2 & E2); [rewrite E, <- app_assoc; reflexivity|].
        assert (EQ : S n + tsizes (a ++ [x]) = S n + tsizes a + tsize x) by (rewrite tsizes_app, tsizes_cons; unfold tsizes at 2; cbn; lia). rewrite EQ in F2, E2.
        exists (post x (S n + tsizes a) :: ls). split; [|cbn [concat]; rewrite <- E2; reflexivity]. cbn [child_ids]. constructor; [|exact F2].
        assert (IX : In x ts) by (rewrite E; apply in_or_app; right; left; reflexivity). rewrite Forall_forall in F. eapply (F x IX). rewrite E in A. eapply At_child. exact A. }
      destruct (G [] ts eq_refl) as (ls & F2 & E2). destruct (view_at f T WF _ _ _ _ A) as (_ & _ & _ & _ & K). cbn [t_children] in K.
      replace (S n + tsizes []) with (S n) in * by (unfold tsizes; cbn; lia). rewrite <- K in F2. pose proof (bl_node f n ls F2) as B. rewrite <- E2 in B. exact B.
  Qed.

  Lemma rust_structure_ok : exists order, bottom_up_list f 0 order /\ rust_structure f = Ok (flat_map (symbol_entry f) order).
  Proof.
    exists (post T 0). split; [exact (post_list T 0 0 None (At_root T))|]. unfold rust_structure, process_symbols, root.
    rewrite (bottom_up_ok _ _ ST _ _ _ _ _ _ _ (At_root T)).
    assert (V : forall m, In m (post T 0) -> valid f m) by (intros m J; apply (order_valid f T WF); exact J). revert V. generalize (post T 0). intros l V.
    set (entry := fun n => if existsb (Nat.eqb (ty f n)) symbol_types then match rs_name f n with Some s => [(s, n)] | None => [] end else []).
    rewrite (fold_res_pure _ _ _ (fun acc n => acc ++ entry n)).
    2:{ intros acc n J. rewrite (ty_v f n (V n J)). cbn [bind]. unfold entry. destruct (existsb (Nat.eqb (ty f n)) symbol_types); [|rewrite app_nil_r; reflexivity].
        rewrite (child_of_type_v f T WF RS_IDENT n (V n J)). cbn [bind]. unfold rs_name. destruct (kid f RS_IDENT n) as [c|] eqn:K; [|cbn [option_map]; rewrite app_nil_r; reflexivity].
        pose proof (text_v f T WF CT c (kid_valid f T WF _ _ _ K)) as TV. unfold text_of in TV. destruct (node_text f c) as [t| |]; cbn [bind] in *; try discriminate TV. rewrite TV. reflexivity. }
    cbn [bind].
    assert (FE : forall acc, fold_left (fun acc n => acc ++ entry n) l acc = acc ++ flat_map entry l).
    { clear. induction l as [|x l IH]; intros acc; cbn [fold_left flat_map]; [rewrite app_nil_r; reflexivity|]. rewrite IH, app_assoc. reflexivity. }
    rewrite FE. cbn [app]. clear FE. induction l as [|n l IH]; [reflexivity|]. cbn [flat_map]. unfold entry at 1, symbol_entry at 1.
    assert (IH' := IH (fun m J => V m (or_intror J))). change symbol_types with [RS_FN_DEF; RS_STRUCT_DEF; RS_ENUM_DEF; RS_TYPE_DEF; RS_TRAIT_DEF; RS_MOD_DEF] at 1.
    destruct (existsb (Nat.eqb (ty f n)) [RS_FN_DEF; RS_STRUCT_DEF; RS_ENUM_DEF; RS_TYPE_DEF; RS_TRAIT_DEF; RS_MOD_DEF]); [|exact IH'].
    destruct (rs_name f n) as [s|]; [|exact IH']. cbn [app flat_map_res fst snd]. rewrite (rng_v f n (V n (or_introl eq_refl))). cbn [bind]. rewrite IH'. reflexivity.
  Qed.
End Proofs.
