(** What the metrics of a file say. *)
From Coq Require Import List Arith NArith Ascii String Decimal DecimalFacts DecimalN DecimalString Bool Lia.
From Verif Require Import Base BaseFacts TextModel EditModel LexModel TreeModel GrammarModel ParserModel ParserProofs ConvertModel ReparseModel TickModel TickSim WorkProofs MetricsModel MetricsSpec.
Import ListNotations.
Open Scope list_scope.

(** ** [get] *)
Lemma get_app : forall ms later name v, get ms name = Some v -> get (ms ++ later) name = Some v.
Proof.
  unfold get. induction ms as [|m ms IH]; intros later name v H; [discriminate|]. cbn [List.find List.app] in *. destruct (String.eqb (m_name m) name); [exact H|]. apply IH. exact H.
Qed.

Lemma get_app_none : forall ms later name, get ms name = None -> get (ms ++ later) name = get later name.
Proof.
  unfold get. induction ms as [|m ms IH]; intros later name H; [reflexivity|]. cbn [List.find List.app] in *. destruct (String.eqb (m_name m) name); [discriminate|]. apply IH. exact H.
Qed.

Lemma get_first : forall ms name v, get ms name = Some v <->
  exists before m after, ms = before ++ m :: after /\ m_name m = name /\ m_value m = v /\ Forall (fun m' => m_name m' <> name) before.
Proof.
  unfold get. induction ms as [|m ms IH]; intros name v.
  - split; [discriminate|]. intros (b & m & a & H & _). destruct b; discriminate.
  - cbn [List.find]. destruct (String.eqb_spec (m_name m) name) as [EQ|NE].
    + split.
      * intros H. injection H as <-. exists [], m, ms. repeat split; auto.
      * intros (b & m' & a & H & N & V & F). destruct b as [|m0 b]; [injection H as <- _; cbn; congruence|]. injection H as <- _. inversion F; subst. congruence.
    + rewrite IH. split.
      * intros (b & m' & a & -> & N & V & F). exists (m :: b), m', a. repeat split; auto.
      * intros (b & m' & a & H & N & V & F). destruct b as [|m0 b]; [injection H as <- _; congruence|]. injection H as <- ->. inversion F; subst. exists b, m', a. repeat split; auto.
Qed.

Lemma get_none : forall ms name, get ms name = None <-> Forall (fun m => m_name m <> name) ms.
Proof.
  unfold get. induction ms as [|m ms IH]; intros name; [split; auto|]. cbn [List.find]. destruct (String.eqb_spec (m_name m) name) as [EQ|NE].
  - split; [discriminate|]. intros F. inversion F; subst. congruence.
  - rewrite IH. split; [auto|]. intros F. inversion F; auto.
Qed.

(** ** Times *)
Lemma record_time_ok : forall ms name d ms', record_time ms name d = Ok ms' ->
  ms' = ms ++ [mkMetric name (total_nanos d / 1000000) "ms"].
Proof.
  intros ms name d ms' H. unfold record_time, u64 in H. destruct (N.ltb (d_secs d * 1000) _); [|discriminate]. cbn [bind] in H.
  destruct (N.ltb (d_nanos d / 1000000 + d_secs d * 1000) _); [|discriminate]. cbn [bind] in H. injection H as <-. unfold record. do 3 f_equal.
  unfold total_nanos. replace (d_secs d * 1000000000 + d_nanos d)%N with (d_nanos d + (d_secs d * 1000) * 1000000)%N by lia. rewrite N.div_add by lia. lia.
Qed.

Lemma record_time_total : forall ms name d, (total_nanos d / 1000000 < 18446744073709551616)%N -> exists ms', record_time ms name d = Ok ms'.
Proof.
  intros ms name d LT. unfold total_nanos in LT. replace (d_secs d * 1000000000 + d_nanos d)%N with (d_nanos d + (d_secs d * 1000) * 1000000)%N in LT by lia. rewrite N.div_add in LT by lia.
  unfold record_time, u64. destruct (N.ltb_spec (d_secs d * 1000) 18446744073709551616) as [A|A]; [|exfalso; revert LT A; generalize (d_nanos d / 1000000)%N; intros; lia]. cbn [bind].
  destruct (N.ltb_spec (d_nanos d / 1000000 + d_secs d * 1000) 18446744073709551616) as [B|B]; [|exfalso; revert LT B; generalize (d_nanos d / 1000000)%N; intros; lia].
  cbn [bind]. eauto.
Qed.

(** ** Parsing *)
Definition reports (k : clock) (w : work) : metrics :=
  [mkMetric "lexing" (total_nanos (k_lexing k) / 1000000) "ms"; mkMetric "relexed region" (N.of_nat (w_relexed w)) "";
   mkMetric "parsing" (total_nanos (k_parsing k) / 1000000) "ms"; mkMetric "parsing ticks" (N.of_nat (w_ticks w)) "";
   mkMetric "inode construction" (total_nanos (k_building k) / 1000000) "ms"].

Lemma measure_ok : forall A ms name (f : res A) d a ms', measure_time ms name f d = Ok (a, ms') ->
  f = Ok a /\ ms' = ms ++ [mkMetric name (total_nanos d / 1000000) "ms"].
Proof. intros A ms name f d a ms' H. unfold measure_time in H. mon H. mon H. injection H as <- <-. split; [exact Hv|]. exact (record_time_ok _ _ _ _ Hv0). Qed.

Lemma def_parse_reports : forall L fuel k prev txt toks ms evs calls ms', metered_def_parse L fuel k prev txt toks ms = Ok (evs, calls, ms') ->
  exists n, t_def_parse L fuel prev txt toks = Ok (evs, calls, n) /\
  ms' = ms ++ [mkMetric "parsing" (total_nanos (k_parsing k) / 1000000) "ms"; mkMetric "parsing ticks" (N.of_nat n) "";
   mkMetric "inode construction" (total_nanos (k_building k) / 1000000) "ms"].
Proof.
  intros L fuel k prev txt toks ms evs calls ms' H. unfold metered_def_parse in H. mon H. mon H. destruct v0 as [[events ticks] ms1]. mon H. destruct v0 as [calls' ms3]. injection H as -> -> ->.
  apply measure_ok in Hv0. destruct Hv0 as [TE ->]. apply measure_ok in Hv1. destruct Hv1 as [CV ->]. exists ticks. split.
  - unfold t_def_parse. rewrite Hv. cbn [bind]. rewrite TE. rewrite tbind_run. rewrite CV. unfold add, ret. cbn [bind]. rewrite Nat.add_0_r. reflexivity.
  - unfold record. rewrite <- !List.app_assoc. reflexivity.
Qed.

Lemma parse_reports : forall L fuel k txt x ms, metered_parse L fuel k txt = Ok (x, ms) -> exists w, worked_parse L fuel txt = Ok (x, w) /\ ms = reports k w.
Proof.
  intros L fuel k txt x ms H. unfold metered_parse in H. mon H. destruct v as [toks ms1]. mon H. destruct v as [[evs calls] ms3]. mon H. injection H as <- <-.
  apply measure_ok in Hv. destruct Hv as [LX ->]. apply def_parse_reports in Hv0. destruct Hv0 as (n & TP & ->). exists (mkWork (List.length txt) n). split.
  - unfold worked_parse. rewrite LX. cbn [bind]. rewrite TP. cbn [bind]. rewrite Hv1. reflexivity.
  - unfold record, reports. cbn [w_relexed w_ticks]. rewrite <- !List.app_assoc. reflexivity.
Qed.

Lemma reparse_reports : forall L fuel k f inc ops x ms, metered_reparse L fuel k f inc ops = Ok (x, ms) -> exists w, worked_reparse L fuel f inc ops = Ok (x, w) /\ ms = reports k w.
Proof.
  intros L fuel k f inc ops x ms H. unfold metered_reparse in H. mon H. mon H. destruct v0 as [[toks region] ms1]. mon H. mon H. destruct v1 as [[evs calls] ms3]. mon H. injection H as <- <-.
  apply measure_ok in Hv0. destruct Hv0 as [LX ->]. apply def_parse_reports in Hv2. destruct Hv2 as (n & TP & ->). exists (mkWork region n). split.
  - unfold worked_reparse. rewrite Hv. cbn [bind]. rewrite LX. cbn [bind]. rewrite Hv1. cbn [bind]. rewrite TP. cbn [bind]. rewrite Hv3. reflexivity.
  - unfold record, reports. cbn [w_relexed w_ticks]. rewrite <- !List.app_assoc. reflexivity.
Qed.

Lemma short_fits : forall d, short d -> (total_nanos d / 1000000 < 18446744073709551616)%N.
Proof. intros d S. apply N.div_lt_upper_bound; [lia|]. unfold short in S. lia. Qed.

Lemma measure_total : forall A ms name (a : A) d, short d -> measure_time ms name (Ok a) d = Ok (a, ms ++ [mkMetric name (total_nanos d / 1000000) "ms"]).
Proof.
  intros A ms name a d S. unfold measure_time. cbn [bind]. destruct (record_time_total ms name d (short_fits d S)) as (ms' & R). rewrite R. cbn [bind]. rewrite (record_time_ok _ _ _ _ R). reflexivity.
Qed.

Lemma def_parse_metered : forall L fuel k prev txt toks ms evs calls n, short_clock k -> t_def_parse L fuel prev txt toks = Ok (evs, calls, n) ->
  exists ms', metered_def_parse L fuel k prev txt toks ms = Ok (evs, calls, ms').
Proof.
  intros L fuel k prev txt toks ms evs calls n (_ & S2 & S3) H. unfold t_def_parse in H. mon H. tmon H. mon H. inj H. unfold metered_def_parse. rewrite Hv. cbn [bind].
  rewrite Hv0, measure_total by exact S2. cbn [bind]. rewrite Hv1, measure_total by exact S3. cbn [bind]. eauto.
Qed.

Lemma parse_metered : forall L fuel k txt x w, short_clock k -> worked_parse L fuel txt = Ok (x, w) -> exists ms, metered_parse L fuel k txt = Ok (x, ms).
Proof.
  intros L fuel k txt x w S H. unfold worked_parse in H. mon H. mon H. destruct v0 as [[evs calls] n]. mon H. injection H as <- <-.
  unfold metered_parse. rewrite Hv, measure_total by apply S. cbn [bind]. destruct (def_parse_metered _ _ k _ _ _ (record ([] ++ [mkMetric "lexing" (total_nanos (k_lexing k) / 1000000) "ms"]) "relexed region" (N.of_nat (List.length txt)) "") _ _ _ S Hv0) as (ms' & M).
  rewrite M. cbn [bind]. rewrite Hv1. cbn [bind]. eauto.
Qed.

Lemma reparse_metered : forall L fuel k f inc ops x w, short_clock k -> worked_reparse L fuel f inc ops = Ok (x, w) -> exists ms, metered_reparse L fuel k f inc ops = Ok (x, ms).
Proof.
  intros L fuel k f inc ops x w S H. unfold worked_reparse in H. mon H. mon H. destruct v0 as [toks region]. mon H. mon H. destruct v1 as [[evs calls] n]. mon H. injection H as <- <-.
  unfold metered_reparse. rewrite Hv. cbn [bind]. rewrite Hv0, measure_total by apply S. cbn [bind]. rewrite Hv1. cbn [bind].
  destruct (def_parse_metered _ _ k _ _ _ (record ([] ++ [mkMetric "lexing" (total_nanos (k_lexing k) / 1000000) "ms"]) "relexed region" (N.of_nat region) "") _ _ _ S Hv2) as (ms' & M).
  rewrite M. cbn [bind]. rewrite Hv3. cbn [bind]. eauto.
Qed.

(** ** Asking *)
Definition answers (l : list (asked * duration)) : metrics := map (fun x => mkMetric (ask_tag (fst x)) (total_nanos (snd x) / 1000000) "ms") l.

Lemma ask_all_ok : forall l ms ms', ask_all ms l = Ok ms' -> ms' = ms ++ answers l.
Proof.
  induction l as [|[a d] l IH]; intros ms ms' H; cbn [ask_all answers map fst snd] in *; [injection H as <-; rewrite List.app_nil_r; reflexivity|].
  mon H. unfold ask_one in Hv. mon Hv. destruct v0 as [[] ms1]. injection Hv as ->. apply measure_ok in Hv0. destruct Hv0 as [_ ->]. apply IH in H. subst. rewrite <- List.app_assoc. reflexivity.
Qed.

Lemma ask_all_total : forall l ms, Forall (fun x => short (snd x)) l -> ask_all ms l = Ok (ms ++ answers l).
Proof.
  induction l as [|[a d] l IH]; intros ms F; cbn [ask_all answers map fst snd]; [rewrite List.app_nil_r; reflexivity|]. inversion F as [|? ? S F']; subst.
  unfold ask_one. rewrite measure_total by exact S. cbn [bind]. rewrite IH by exact F'. rewrite <- List.app_assoc. reflexivity.
Qed.

(** ** The report *)
Lemma append_assoc : forall a b c : string, ((a ++ b) ++ c = a ++ (b ++ c))%string.
Proof. induction a as [|x a IH]; intros b c; [reflexivity|]. cbn [append]. rewrite IH. reflexivity. Qed.

Lemma cut_same : forall c a a' r r', free_of c a -> free_of c a' -> (a ++ String c r = a' ++ String c r')%string -> a = a' /\ r = r'.
Proof.
  intros c. induction a as [|x a IH]; intros a' r r' F F' H; destruct a' as [|y a']; cbn [append free_of] in *.
  - injection H as <-. auto.
  - injection H as E _. destruct F' as [F' _]. congruence.
  - injection H as E _. destruct F as [F _]. congruence.
  - injection H as <- H. destruct F as [_ F], F' as [_ F']. destruct (IH _ _ _ F F' H) as [-> ->]. auto.
Qed.

Lemma decimal_inj : forall m n, decimal m = decimal n -> m = n.
Proof.
  intros m n H. unfold decimal in H. apply (f_equal NilZero.uint_of_string) in H.
  rewrite <- (DecimalN.Unsigned.of_to m), <- (DecimalN.Unsigned.of_to n). pose proof (NilZero.usu (N.to_uint m)) as A. pose proof (NilZero.usu (N.to_uint n)) as B.
  assert (NZ : forall k, N.to_uint k <> Nil).
  { intros k. destruct k as [|p]; [discriminate|]. cbn [N.to_uint]. exact (DecimalPos.Unsigned.to_uint_nonnil p). }
  rewrite A in H by apply NZ. rewrite B in H by apply NZ. injection H as ->. reflexivity.
Qed.

Lemma decimal_digits : forall n, all_digits (decimal n) /\ decimal n <> EmptyString.
Proof.
  assert (D : forall d, all_digits (NilEmpty.string_of_uint d)).
  { induction d; cbn [NilEmpty.string_of_uint all_digits]; [exact I|..]; (split; [unfold digit; cbn; lia|exact IHd]). }
  intros n. unfold decimal, NilZero.string_of_uint. destruct (N.to_uint n) eqn:E; [split; [cbn; unfold digit; cbn; lia|discriminate]|..]; (split; [apply D|discriminate]).
Qed.

Lemma digits_free : forall s c, all_digits s -> ~ digit c -> free_of c s.
Proof. induction s as [|d s IH]; intros c A N; cbn [free_of all_digits] in *; [exact I|]. destruct A as [A B]. split; [intros ->; exact (N A)|]. apply IH; assumption. Qed.

Lemma show_inj : forall ms ms', Forall legible ms -> Forall legible ms' -> show_metrics ms = show_metrics ms' -> ms = ms'.
Proof.
  assert (CONS : forall m ms, show_metrics (m :: ms) = (m_name m ++ String ":" (String " " (decimal (m_value m) ++ String " " (m_unit m ++ String nl (show_metrics ms)))))%string).
  { intros m ms. cbn [show_metrics fold_right]. unfold show_metric. repeat (rewrite append_assoc; cbn [append]). reflexivity. }
  induction ms as [|m ms IH]; intros ms' F F' H; destruct ms' as [|m' ms'].
  - reflexivity.
  - rewrite CONS in H. destruct (m_name m'); discriminate.
  - rewrite CONS in H. destruct (m_name m); discriminate.
  - inversion F as [|? ? [N U] F1]; subst. inversion F' as [|? ? [N' U'] F1']; subst. rewrite !CONS in H.
    apply cut_same in H; [|exact N|exact N']. destruct H as [EN H]. injection H as H.
    assert (SP : ~ digit " "%char) by (unfold digit; cbn; lia).
    apply cut_same in H; [|apply digits_free; [apply decimal_digits|exact SP]|apply digits_free; [apply decimal_digits|exact SP]]. destruct H as [EV H]. apply decimal_inj in EV.
    apply cut_same in H; [|exact U|exact U']. destruct H as [EU H]. apply IH in H; [|exact F1|exact F1']. subst ms'. f_equal. destruct m, m'; cbn in *; congruence.
Qed.

Lemma free_app : forall c a b, free_of c a -> free_of c b -> free_of c (a ++ b)%string.
Proof. induction a as [|x a IH]; intros b A B; cbn [append free_of] in *; [exact B|]. destruct A as [X A]. split; [exact X|]. apply IH; assumption. Qed.

(** ** A number in decimal *)
Lemma value_digits : forall d acc, value_of acc (NilEmpty.string_of_uint d) = match acc with N0 => Pos.of_uint d | Npos p => Npos (Pos.of_uint_acc d p) end.
Proof.
  induction d; intros acc; cbn [NilEmpty.string_of_uint value_of];
    [destruct acc; reflexivity|..]; rewrite IHd; cbn [Pos.of_uint Pos.of_uint_acc]; destruct acc as [|p]; try reflexivity;
    rewrite N.add_comm; cbn [N.mul N.add N.of_nat]; f_equal; f_equal; reflexivity.
Qed.

Lemma value_decimal : forall n, value_of 0 (decimal n) = n.
Proof.
  intros n. unfold decimal, NilZero.string_of_uint. pose proof (DecimalN.Unsigned.of_to n) as OT. destruct (N.to_uint n) eqn:E; [cbn in OT; subst; reflexivity|..];
    rewrite value_digits; exact OT.
Qed.

(** Zero is written 0 and nothing else starts with a zero. *)
Lemma leading_zero : forall n r, decimal n = String "0" r -> n = 0%N /\ r = EmptyString.
Proof.
  intros n r H. destruct n as [|p]; [vm_compute in H; injection H as <-; auto|]. exfalso.
  assert (NH : unorm (N.to_uint (Npos p)) = N.to_uint (Npos p)).
  { pose proof (DecimalN.Unsigned.to_of (N.to_uint (Npos p))) as T. rewrite DecimalN.Unsigned.of_to in T. symmetry. exact T. }
  pose proof (DecimalN.Unsigned.of_to (Npos p)) as OT.
  unfold decimal, NilZero.string_of_uint in H. destruct (N.to_uint (Npos p)) eqn:E; cbn [NilEmpty.string_of_uint] in H; try discriminate H; [discriminate OT|].
  unfold unorm in NH. cbn [nzhead] in NH. pose proof (nzhead_nonzero u) as NZ. destruct (nzhead u) eqn:Z; try discriminate NH; [injection NH as <-; discriminate OT|].
  exact (NZ _ eq_refl).
Qed.
