(** When the accessors of a given module panic. *)
From Coq Require Import List Arith Bool Lia.
From Verif Require Import Base BaseFacts TextModel TreeModel TreeSpec SearchModel FileEditSpec DbModel AnalysisModel AnalysisSpec ViewProofs RefModel CodegenModel RuntimeModel RuntimeProofs.
Import ListNotations.
Open Scope list_scope.

(** [b] is the body of a method of the type [y] or of a trait it implements. *)
Definition has_method (x : ctx_ast) (y : ctx_node) (m : ctx_method) : Prop :=
  In m (cn_methods y) \/ exists tr, In tr (ca_traits x) /\ In (cn_struct y) (ct_impl_for tr) /\ In m (ct_methods tr).

Section Check.
  Variable types : list (bytes * bool).
  Variable x : ctx_ast.

  (** The numbers of the nodes that [T::wrap] takes, if all names are known *)
  Fixpoint accept (fuel : nat) (t : bytes) : option (list nat) :=
    match List.find (fun d => bytes_eqb (cn_struct d) t) (ca_nodes x) with
    | Some d => option_map (fun k => [k]) (const types (cn_type d))
    | None =>
        match List.find (fun d => bytes_eqb (cc_enum d) t) (ca_classes x), fuel with
        | Some d, S fuel =>
            (fix go (vs : list (bytes * bytes)) : option (list nat) :=
               match vs with
               | [] => Some []
               | v :: vs => match accept fuel (snd v), go vs with Some a, Some b => Some (a ++ b) | _, _ => None end
               end) (cc_variants d)
        | _, _ => None
        end
    end.

  (** What an accessor needs: a child with one of the numbers, or nothing *)
  Definition need (fuel : nat) (b : accessor) : option (option (list nat)) :=
    match b with
    | AText false c | AToken false c => option_map (fun k => Some [k]) (const types c)
    | AText true c | AToken true c => option_map (fun _ => None) (const types c)
    | AChild Single t => option_map Some (accept fuel t)
    | AChild _ t => option_map (fun _ => None) (accept fuel t)
    end.

  Lemma accept_more : forall fuel t l, accept fuel t = Some l -> accept (S fuel) t = Some l.
  Proof.
    induction fuel as [|fuel IH]; intros t l E.
    - cbn [accept] in E |- *. destruct (List.find (fun d => bytes_eqb (cn_struct d) t) (ca_nodes x)); [exact E|]. destruct (List.find (fun d => bytes_eqb (cc_enum d) t) (ca_classes x)); discriminate E.
    - cbn [accept] in E. change (accept (S (S fuel)) t) with (match List.find (fun d => bytes_eqb (cn_struct d) t) (ca_nodes x) with
        | Some d => option_map (fun k => [k]) (const types (cn_type d))
        | None => match List.find (fun d => bytes_eqb (cc_enum d) t) (ca_classes x) with
          | Some d => (fix go (vs : list (bytes * bytes)) : option (list nat) :=
               match vs with [] => Some [] | v :: vs => match accept (S fuel) (snd v), go vs with Some a, Some b => Some (a ++ b) | _, _ => None end end) (cc_variants d)
          | None => None end end).
      destruct (List.find (fun d => bytes_eqb (cn_struct d) t) (ca_nodes x)); [exact E|]. destruct (List.find (fun d => bytes_eqb (cc_enum d) t) (ca_classes x)) as [y|]; [|exact E].
      revert l E. induction (cc_variants y) as [|v vs IHv]; intros l E; [exact E|].
      destruct (accept fuel (snd v)) as [a|] eqn:EA; [|discriminate E]. rewrite (IH _ _ EA). match type of E with match ?g with _ => _ end = _ => destruct g as [b|]; [|discriminate E] end. rewrite (IHv b eq_refl). exact E.
  Qed.
  Lemma need_more : forall fuel more b o, need fuel b = Some o -> need (more + fuel) b = Some o.
  Proof.
    intros fuel more b o E. induction more as [|more IH]; [exact E|]. change (S more + fuel) with (S (more + fuel)). clear E. destruct b as [op c|[| |] t|op c]; cbn [need] in IH |- *; try exact IH;
      (destruct (accept (more + fuel) t) as [l|] eqn:A; [|discriminate IH]; rewrite (accept_more _ _ _ A); exact IH).
  Qed.

  Definition methods_of (y : ctx_node) : list ctx_method :=
    cn_methods y ++ flat_map (fun tr => if existsb (bytes_eqb (cn_struct y)) (ct_impl_for tr) then ct_methods tr else []) (ca_traits x).
  Lemma has_method_in : forall y m, has_method x y m -> In m (methods_of y).
  Proof.
    intros y m [J|(tr & JT & JI & J)]; apply in_or_app; [left; exact J|right]. apply in_flat_map. exists tr. split; [exact JT|].
    assert (E : existsb (bytes_eqb (cn_struct y)) (ct_impl_for tr) = true) by (apply existsb_exists; exists (cn_struct y); split; [exact JI|apply beq; reflexivity]). rewrite E. exact J.
  Qed.

  Definition node_ok (fuel : nat) (y : ctx_node) : bool :=
    match const types (cn_type y) with Some _ => true | None => false end && forallb (fun m => match need fuel (cm_body m) with Some _ => true | None => false end) (methods_of y).
  Definition module_ok (fuel : nat) : bool := forallb (node_ok fuel) (ca_nodes x).
  (** For each method that can panic: the type, the name of the method, the number of the node and what is needed *)
  Definition required (fuel : nat) : list (bytes * bytes * (nat * list nat)) :=
    flat_map (fun y => match const types (cn_type y) with
      | Some k => flat_map (fun m => match need fuel (cm_body m) with Some (Some l) => [(cn_struct y, cm_name m, (k, l))] | _ => [] end) (methods_of y)
      | None => [] end) (ca_nodes x).

  Section File.
  Variables (h : file) (T : tree).
  Hypothesis WH : wf_file h T.
  Hypothesis CH : char_tree (f_text h) T.

  Lemma accept_wrap : forall n, valid h n -> forall fuel t l, accept fuel t = Some l ->
    exists r, wrap types x h fuel t n = Ok r /\ (r <> None <-> In (ty h n) l).
  Proof.
    intros n V. induction fuel as [|fuel IH]; intros t l E.
    - cbn [accept] in E. cbn [wrap]. destruct (List.find (fun d => bytes_eqb (cn_struct d) t) (ca_nodes x)) as [y|].
      + destruct (const types (cn_type y)) as [k|]; [|discriminate E]. cbn [option_map] in E. injection E as <-. cbn [unwrap bind]. rewrite (ty_v h n V). cbn [bind]. eexists. split; [reflexivity|]. cbn [In].
        destruct (ty h n =? k) eqn:Q; [apply Nat.eqb_eq in Q|apply Nat.eqb_neq in Q]; split; intros H; try congruence; [left; congruence|destruct H as [H|[]]; congruence].
      + destruct (List.find (fun d => bytes_eqb (cc_enum d) t) (ca_classes x)); discriminate E.
    - cbn [accept] in E. cbn [wrap]. destruct (List.find (fun d => bytes_eqb (cn_struct d) t) (ca_nodes x)) as [y|].
      + destruct (const types (cn_type y)) as [k|]; [|discriminate E]. cbn [option_map] in E. injection E as <-. cbn [unwrap bind]. rewrite (ty_v h n V). cbn [bind]. eexists. split; [reflexivity|]. cbn [In].
        destruct (ty h n =? k) eqn:Q; [apply Nat.eqb_eq in Q|apply Nat.eqb_neq in Q]; split; intros H; try congruence; [left; congruence|destruct H as [H|[]]; congruence].
      + destruct (List.find (fun d => bytes_eqb (cc_enum d) t) (ca_classes x)) as [y|]; [|discriminate E]. revert l E. induction (cc_variants y) as [|v vs IHv]; intros l E.
        * injection E as <-. exists None. split; [reflexivity|]. split; [congruence|intros []].
        * destruct (accept fuel (snd v)) as [a|] eqn:EA; [|discriminate E]. destruct (IH _ _ EA) as (r & W & P). rewrite W. cbn [bind].
          match type of E with match ?g with _ => _ end = _ => destruct g as [b|]; [|discriminate E] end. injection E as <-.
          destruct (IHv b eq_refl) as (r' & W' & P'). destruct r as [u|].
          -- eexists. split; [reflexivity|]. split; [intros _; apply in_or_app; left; apply P; discriminate|discriminate].
          -- exists r'. split; [exact W'|]. rewrite P'. split; intros H; [apply in_or_app; right; exact H|]. apply in_app_or in H. destruct H as [H|H]; [|exact H]. apply P in H. congruence.
  Qed.
  Lemma accept_children : forall fuel t l, accept fuel t = Some l -> forall n, valid h n ->
    exists vs, ast_children_of types x h fuel t n = Ok vs /\ (vs <> [] <-> exists c, In c (kids h n) /\ In (ty h c) l).
  Proof.
    intros fuel t l E n V. unfold ast_children_of. rewrite (kids_v h n V). cbn [bind].
    assert (VK : Forall (valid h) (kids h n)) by (apply Forall_forall; intros c J; exact (kids_valid h T WH n c J)).
    induction VK as [|c cs VC VK IH]; [exists []; split; [reflexivity|]; split; [congruence|intros (c & [] & _)]|].
    destruct (accept_wrap c VC fuel t l E) as (r & W & P). cbn [filter_map_res]. rewrite W. cbn [bind]. destruct IH as (vs & -> & Q). cbn [bind]. eexists. split; [reflexivity|]. destruct r as [u|].
    - split; [intros _; exists c; split; [left; reflexivity|apply P; discriminate]|discriminate].
    - rewrite Q. split; [intros (d & J & I); exists d; split; [right; exact J|exact I]|]. intros (d & [<-|J] & I); [apply P in I; congruence|exists d; auto].
  Qed.

  (** An accessor returns or panics, and it panics exactly if there is no child of the kind it needs. *)
  Lemma call_need : forall fuel b o n, need fuel b = Some o -> valid h n ->
    match o with
    | None => exists r, call types x h fuel b n = Ok r
    | Some l => ((exists c, In c (kids h n) /\ In (ty h c) l) -> exists r, call types x h fuel b n = Ok r) /\
                ((~ exists c, In c (kids h n) /\ In (ty h c) l) -> call types x h fuel b n = Panic)
    end.
  Proof.
    intros fuel b o n E V.
    assert (KID : forall k, match kid h k n with Some m => valid h m /\ exists c, In c (kids h n) /\ In (ty h c) [k] | None => ~ exists c, In c (kids h n) /\ In (ty h c) [k] end).
    { intros k. unfold kid. destruct (kids_of h k n) as [|m l] eqn:KO; cbn [hd_error].
      - intros (c & J & [I|[]]). assert (X : In c (kids_of h k n)) by (unfold kids_of; apply filter_In; split; [exact J|apply Nat.eqb_eq; congruence]). rewrite KO in X. destruct X.
      - assert (X : In m (kids_of h k n)) by (rewrite KO; left; reflexivity). unfold kids_of in X. apply filter_In in X. destruct X as (J & Q). apply Nat.eqb_eq in Q. split; [exact (kids_valid h T WH n m J)|]. exists m. split; [exact J|left; congruence]. }
    assert (CHILD : forall t l, accept fuel t = Some l -> (exists r, call types x h fuel (AChild Optional t) n = Ok r) /\ (exists r, call types x h fuel (AChild Many t) n = Ok r) /\
      ((exists c, In c (kids h n) /\ In (ty h c) l) -> exists r, call types x h fuel (AChild Single t) n = Ok r) /\
      ((~ exists c, In c (kids h n) /\ In (ty h c) l) -> call types x h fuel (AChild Single t) n = Panic)).
    { intros t l A. destruct (accept_children fuel t l A n V) as (vs & W & P). unfold call. rewrite W. cbn [bind]. split; [eexists; reflexivity|]. split; [eexists; reflexivity|]. destruct vs as [|v vs].
      - split; [intros H; apply P in H; congruence|reflexivity].
      - split; [intros _; eexists; reflexivity|]. intros H. exfalso. apply H. apply P. discriminate. }
    destruct b as [[|] c|[| |] t|[|] c]; cbn [need] in E.
    - destruct (const types c) as [k|] eqn:K; [|discriminate E]. injection E as <-. unfold call. rewrite K. cbn [unwrap bind]. rewrite (child_of_type_v h T WH k n V). cbn [bind].
      pose proof (KID k) as X. destruct (kid h k n) as [m|]; [|eexists; reflexivity]. rewrite (text_v h T WH CH m (proj1 X)). eexists; reflexivity.
    - destruct (const types c) as [k|] eqn:K; [|discriminate E]. injection E as <-. unfold call. rewrite K. cbn [unwrap bind]. rewrite (child_of_type_v h T WH k n V). cbn [bind].
      pose proof (KID k) as X. destruct (kid h k n) as [m|]; cbn [unwrap bind].
      + destruct X as (VM & X). rewrite (text_v h T WH CH m VM). split; [intros _; eexists; reflexivity|intros H; contradiction].
      + split; [intros H; contradiction|reflexivity].
    - destruct (accept fuel t) as [l|] eqn:A; [|discriminate E]. injection E as <-. destruct (CHILD t l A) as (_ & _ & X). exact X.
    - destruct (accept fuel t) as [l|] eqn:A; [|discriminate E]. injection E as <-. destruct (CHILD t l A) as (X & _). exact X.
    - destruct (accept fuel t) as [l|] eqn:A; [|discriminate E]. injection E as <-. destruct (CHILD t l A) as (_ & X & _). exact X.
    - destruct (const types c) as [k|] eqn:K; [|discriminate E]. injection E as <-. unfold call. rewrite K. cbn [unwrap bind]. rewrite (child_of_type_v h T WH k n V). eexists; reflexivity.
    - destruct (const types c) as [k|] eqn:K; [|discriminate E]. injection E as <-. unfold call. rewrite K. cbn [unwrap bind]. rewrite (child_of_type_v h T WH k n V). cbn [bind].
      pose proof (KID k) as X. destruct (kid h k n) as [m|]; cbn [unwrap bind].
      + destruct X as (VM & X). split; [intros _; eexists; reflexivity|intros H; contradiction].
      + split; [intros H; contradiction|reflexivity].
  Qed.

  (** A value of the type [y] is around a node with the number of [y]. *)
  Lemma struct_number : forall fuel y n, NoDup (map cn_struct (ca_nodes x)) -> In y (ca_nodes x) -> wrap types x h fuel (cn_struct y) n = Ok (Some (AStruct (cn_struct y) n)) ->
    valid h n /\ const types (cn_type y) = Some (ty h n).
  Proof.
    intros fuel y n ND J W. assert (X : wrap types x h fuel (cn_struct y) n = (k <- unwrap (const types (cn_type y)) ;; m <- node_ty (f_nodes h) n ;; Ok (if m =? k then Some (AStruct (cn_struct y) n) else None))).
    { destruct fuel; cbn [wrap]; rewrite (find_unique _ cn_struct _ _ ND J); reflexivity. }
    rewrite X in W. clear X. destruct (const types (cn_type y)) as [k|]; [|discriminate W]. cbn [unwrap bind] in W. 
    assert (V : valid h n). { unfold valid. apply nth_error_Some. intros N. unfold node_ty, node_get, index in W. rewrite N in W. discriminate W. }
    split; [exact V|]. rewrite (ty_v h n V) in W. cbn [bind] in W. destruct (ty h n =? k) eqn:Q; [|discriminate W]. apply Nat.eqb_eq in Q. congruence.
  Qed.

  Lemma total : forall N more, module_ok N = true -> NoDup (map cn_struct (ca_nodes x)) ->
    forall y m n, In y (ca_nodes x) -> has_method x y m -> wrap types x h (more + N) (cn_struct y) n = Ok (Some (AStruct (cn_struct y) n)) ->
    (exists r, call types x h (more + N) (cm_body m) n = Ok r) \/
    (exists l, In (cn_struct y, cm_name m, (ty h n, l)) (required N) /\ valid h n /\ (~ exists c, In c (kids h n) /\ In (ty h c) l) /\ call types x h (more + N) (cm_body m) n = Panic).
  Proof.
    intros N more OK ND y m n JY HM W. destruct (struct_number (more + N) y n ND JY W) as (V & K). unfold module_ok in OK. rewrite forallb_forall in OK. specialize (OK y JY). apply andb_true_iff in OK. destruct OK as (_ & OK).
    rewrite forallb_forall in OK. apply has_method_in in HM. specialize (OK m HM). destruct (need N (cm_body m)) as [o|] eqn:NE; [|discriminate OK].
    pose proof (call_need (more + N) (cm_body m) o n (need_more N more _ _ NE) V) as C. destruct o as [l|]; [|left; exact C]. destruct C as (C1 & C2).
    assert (D : (exists c, In c (kids h n) /\ In (ty h c) l) \/ ~ exists c, In c (kids h n) /\ In (ty h c) l).
    { destruct (existsb (fun c => existsb (Nat.eqb (ty h c)) l) (kids h n)) eqn:E.
      - left. apply existsb_exists in E. destruct E as (c & J & E). apply existsb_exists in E. destruct E as (k & I & Q). apply Nat.eqb_eq in Q. exists c. split; [exact J|congruence].
      - right. intros (c & J & I). assert (X : existsb (fun c => existsb (Nat.eqb (ty h c)) l) (kids h n) = true) by (apply existsb_exists; exists c; split; [exact J|apply existsb_exists; exists (ty h c); split; [exact I|apply Nat.eqb_refl]]). congruence. }
    destruct D as [D|D]; [left; exact (C1 D)|right]. exists l. split; [|auto]. unfold required. apply in_flat_map. exists y. split; [exact JY|]. rewrite K. apply in_flat_map. exists m. split; [exact HM|]. rewrite NE. left. reflexivity.
  Qed.
  End File.
End Check.
