(** Protobuf scrapes whose rows were read under the memory model. *)
From Coq Require Import String List NArith ZArith Bool Arith Lia.
From Verif Require Import Base BaseFacts Writer NameModel NameSpec FloatModel MetricModel LabelModel EncoderModel TextModel TextSpec
  EncoderSpec ProtoModel ProtoSpec ProtoEndSpec ProtoEndTheorems ProtoScrapeSpec ConcProtoSpec ConcModel ConcSpec ConcScrapeModel ConcScrapeSpec ConcProto
  ConcWeakModel ConcWeakSpec ConcWeakTheorems ConcMomentSpec ConcWeakMomentSpec ConcWeakVecModel ConcWeakVecSpec ConcWeakVec.
Import ListNotations.

Section Streams.
  Variable ryu : f64 -> bytes.
  Variable bd : build.
  Variable visit : nat -> labels.

  Theorem weak_counter_messages : forall E ks k rows, consistent E -> calls_of (vec_does counter_does) E ks -> In k ks -> k_res k = VRows rows -> rows <> [] ->
    (forall c, In c (map fst rows) -> x_init E c = 0%N /\ (all_added_at c ks < 2 ^ 64)%N) ->
    forall nss base help sc, pscrape_of nss base help (collected_family visit KCounter MCounter rows) sc ->
    exists out, pscrape_writes ryu bd sc out /\
      ((nlen out < 2 ^ 64)%N -> exists p, stream_has ryu sc out p /\
         message (full_name nss base []) help KCounter
           (fun c q => exists v, counter_shown ryu (visit c) v q /\
              ((forall k', In k' ks -> changes_at increments c (k_op k') = true -> before E k' k) -> v = all_added_at c ks) /\
              (forall qs, NoDup qs -> (forall q, In q qs -> exists k', nth_error ks q = Some k' /\ before E k' k) -> (added_at c ks qs <= v)%N) /\
              (forall qs, NoDup qs -> (forall q, In q qs -> exists k', nth_error ks q = Some k' /\ before E k k') -> (v + added_at c ks qs <= all_added_at c ks)%N))
           (map fst rows) p).
  Proof.
    intros E ks k rows CON KS K R NE LT nss base help sc SC.
    destruct (collected_message ryu bd visit KCounter MCounter ltac:(discriminate) ltac:(reflexivity) rows nss base help sc NE ltac:(now intros) SC) as (out & WR & RD).
    exists out. split; [exact WR|]. intros L. destruct (RD L) as (p & SH & N1 & N2 & N3 & F). exists p. split; [exact SH|]. split; [exact N1|]. split; [exact N2|]. split; [exact N3|].
    eapply message_rows; [|exact F]. intros c v q J S. exists v.
    destruct (LT c ltac:(apply in_map_iff; now exists (c, v))) as [I0 L0].
    destruct (counter_row E ks k c v CON KS K ltac:(exists rows; now split)) as [EX X]; [rewrite I0; reflexivity|].
    destruct X as [LO HI]; [rewrite I0; lia|]. rewrite I0 in EX, LO, HI.
    split; [|split; [|split]].
    - apply counter_message; [|exact S]. specialize (HI [] (NoDup_nil _) ltac:(intros x [])). cbn in HI. lia.
    - intros ALL. rewrite (EX ALL), N.mod_small by lia. lia.
    - intros qs ND Q. specialize (LO qs ND Q). lia.
    - intros qs ND Q. specialize (HI qs ND Q). lia.
  Qed.

  Theorem weak_counters_rise : forall E ks k k' rows0 rows, consistent E -> calls_of (vec_does counter_does) E ks ->
    In k ks -> In k' ks -> k_res k = VRows rows0 -> k_res k' = VRows rows -> before E k k' -> rows0 <> [] ->
    (forall c, In c (map fst rows) -> x_init E c = 0%N /\ (all_added_at c ks < 2 ^ 64)%N) -> incl (map fst rows0) (map fst rows) ->
    forall nss base help sc0 sc, pscrape_of nss base help (collected_family visit KCounter MCounter rows0) sc0 ->
    pscrape_of nss base help (collected_family visit KCounter MCounter rows) sc ->
    exists out0 out, pscrape_writes ryu bd sc0 out0 /\ pscrape_writes ryu bd sc out /\
      ((nlen out0 < 2 ^ 64)%N -> (nlen out < 2 ^ 64)%N -> exists p0 p, stream_has ryu sc0 out0 p0 /\ stream_has ryu sc out p /\ counters_rise p0 p).
  Proof.
    intros E ks k k' rows0 rows CON KS K K' R R' B NE0 LT IN nss base help sc0 sc SC0 SC.
    assert (RG : forall c v, In (c, v) rows -> (v < 2 ^ 64)%N).
    { intros c v J. destruct (LT c ltac:(apply in_map_iff; now exists (c, v))) as [I0 L].
      destruct (counter_row E ks k' c v CON KS K' ltac:(exists rows; now split)) as [_ X]; [rewrite I0; reflexivity|].
      destruct X as [_ X]; [rewrite I0; lia|]. specialize (X [] (NoDup_nil _) ltac:(intros q [])). rewrite I0 in X. cbn in X. lia. }
    assert (MORE : forall c r0, In (c, r0) rows0 -> exists r, In (c, r) rows /\ (r0 <= r)%N).
    { intros c r0 J. assert (IC : In c (map fst rows)) by (apply IN, in_map_iff; now exists (c, r0)).
      destruct (LT c IC) as [I0 L]. apply in_map_iff in IC as ([c' r] & EQ & J'). cbn in EQ. subst c'. exists r. split; [exact J'|].
      apply (counter_rows_grow E ks k k' c r0 r CON KS K K'); [exists rows0; now split|exists rows; now split|exact B|]. rewrite I0. lia. }
    assert (NE : rows <> []). { destruct rows0 as [|[c r0] rows0]; [contradiction|]. destruct (MORE c r0 ltac:(now left)) as (r & J & _). intros ->. destruct J. }
    destruct (collected_message ryu bd visit KCounter MCounter ltac:(discriminate) ltac:(reflexivity) rows0 nss base help sc0 NE0 ltac:(now intros) SC0) as (out0 & WR0 & RD0).
    destruct (collected_message ryu bd visit KCounter MCounter ltac:(discriminate) ltac:(reflexivity) rows nss base help sc NE ltac:(now intros) SC) as (out & WR & RD).
    exists out0, out. split; [exact WR0|]. split; [exact WR|]. intros L0 L.
    destruct (RD0 L0) as (p0 & SH0 & N0 & _ & _ & F0). destruct (RD L) as (p & SH & N1 & _ & _ & F).
    exists p0, p. split; [exact SH0|]. split; [exact SH|]. apply (messages_rise ryu visit rows0 rows p0 p MORE RG); [congruence|exact F0|exact F].
  Qed.

  Theorem weak_flight_messages : forall E ks k rows (ts : nat -> list (list nat)), consistent E -> calls_of (vec_does igauge_does) E ks -> In k ks -> k_res k = VRows rows -> rows <> [] ->
    (forall c, In c (map fst rows) -> threads_of E ks (changes_at igauge_writes c) (ts c) /\ x_init E c = 0%Z /\
       (forall k' u, In k' ks -> k_op k' = VCall c u -> is_set u = false) /\
       (forall t i, In t (ts c) -> initial i t -> (0 <= sum_over (fun op => gauge_delta (on_metric IRead op)) (ops_of_calls ks i) <= 1)%Z) /\
       (Z.of_nat (length (ts c)) < 2 ^ 63)%Z) ->
    forall nss base help sc, pscrape_of nss base help (collected_family visit KGauge MGauge rows) sc ->
    exists out, pscrape_writes ryu bd sc out /\
      ((nlen out < 2 ^ 64)%N -> exists p, stream_has ryu sc out p /\
         message (full_name nss base []) help KGauge
           (fun c q => exists z, gauge_shown ryu (visit c) z q /\ (0 <= z <= Z.of_nat (length (ts c)))%Z) (map fst rows) p).
  Proof.
    intros E ks k rows ts CON KS K R NE LT nss base help sc SC.
    destruct (collected_message ryu bd visit KGauge MGauge ltac:(discriminate) ltac:(reflexivity) rows nss base help sc NE ltac:(now intros) SC) as (out & WR & RD).
    exists out. split; [exact WR|]. intros L. destruct (RD L) as (p & SH & N1 & N2 & N3 & F). exists p. split; [exact SH|]. split; [exact N1|]. split; [exact N2|]. split; [exact N3|].
    eapply message_rows; [|exact F]. intros c v q J [SL (CN & x & GN & ->)]. exists v.
    destruct (LT c ltac:(apply in_map_iff; now exists (c, v))) as (TS & I0 & NS & FL & L0).
    pose proof (gauge_row_in_flight E ks k c v (ts c) CON KS TS K ltac:(exists rows; now split) I0 NS FL L0) as BR.
    split; [|exact BR]. split; [exact SL|]. split; [exact CN|]. eexists. split; [exact GN|]. apply of_Z_int_double. lia.
  Qed.

  (** Gauges, where [ts c] are the threads of cell [c], in any use. *)
  Theorem weak_gauge_messages : forall E ks k rows (ts : nat -> list (list nat)), consistent E -> calls_of (vec_does igauge_does) E ks -> In k ks -> k_res k = VRows rows -> rows <> [] ->
    (forall c v, In (c, v) rows -> (- 2 ^ 63 <= v < 2 ^ 63)%Z) ->
    (forall c, In c (map fst rows) -> threads_of E ks (changes_at igauge_writes c) (ts c)) ->
    forall nss base help sc, pscrape_of nss base help (collected_family visit KGauge MGauge rows) sc ->
    exists out, pscrape_writes ryu bd sc out /\
      ((nlen out < 2 ^ 64)%N -> exists p, stream_has ryu sc out p /\
         message (full_name nss base []) help KGauge
           (fun c q => exists seen, gauge_shown ryu (visit c) (outcome_of ks gauge_at (x_init E c) seen) q /\ cut_at E ks (ts c) k seen) (map fst rows) p).
  Proof.
    intros E ks k rows ts CON KS K R NE RG LT nss base help sc SC.
    destruct (collected_message ryu bd visit KGauge MGauge ltac:(discriminate) ltac:(reflexivity) rows nss base help sc NE ltac:(now intros) SC) as (out & WR & RD).
    exists out. split; [exact WR|]. intros L. destruct (RD L) as (p & SH & N1 & N2 & N3 & F). exists p. split; [exact SH|]. split; [exact N1|]. split; [exact N2|]. split; [exact N3|].
    eapply message_rows; [|exact F]. intros c v q J [SL (CN & x & GN & ->)].
    destruct (gauge_row E ks k c v (ts c) CON KS (LT c ltac:(apply in_map_iff; now exists (c, v))) K ltac:(exists rows; now split)) as (seen & EQ & CUT).
    exists seen. rewrite <- EQ. split; [|exact CUT]. split; [exact SL|]. split; [exact CN|]. eexists. split; [exact GN|]. apply of_Z_int_double. specialize (RG c v J). lia.
  Qed.

  (** Float gauges that one thread each writes, [t c] for cell [c]; [rows] has floats of 64 bits. *)
  Theorem weak_float_messages : forall E ks k rows (t : nat -> list nat), consistent E -> calls_of (vec_does float_does) E ks -> In k ks -> k_res k = VRows rows -> rows <> [] ->
    (forall c v, In (c, v) rows -> (v < 2 ^ 64)%N) ->
    (forall c, In c (map fst rows) -> threads_of E ks (changes_at ConcWeakSpec.float_writes c) [t c]) ->
    forall nss base help sc, pscrape_of nss base help (collected_family visit KFloatGauge MFloatGauge rows) sc ->
    exists out, pscrape_writes ryu bd sc out /\
      ((nlen out < 2 ^ 64)%N -> exists p, stream_has ryu sc out p /\
         message (full_name nss base []) help KFloatGauge
           (fun c q => exists i, initial i (t c) /\ float_gauge_shown ryu (visit c) (outcome_of ks float_at (x_init E c) i) q /\
              forall n k', nth_error ks n = Some k' -> In n (t c) -> (before E k' k -> In n i) /\ (before E k k' -> ~ In n i)) (map fst rows) p).
  Proof.
    intros E ks k rows t CON KS K R NE BO LT nss base help sc SC.
    destruct (collected_message ryu bd visit KFloatGauge MFloatGauge ltac:(discriminate) ltac:(reflexivity) rows nss base help sc NE ltac:(intros c v J; exact (BO c v J)) SC) as (out & WR & RD).
    exists out. split; [exact WR|]. intros L. destruct (RD L) as (p & SH & N1 & N2 & N3 & F). exists p. split; [exact SH|]. split; [exact N1|]. split; [exact N2|]. split; [exact N3|].
    eapply message_rows; [|exact F]. intros c v q J [SL [CN GN]].
    destruct (float_row_alone E ks k c v (t c) CON KS (LT c ltac:(apply in_map_iff; now exists (c, v))) K ltac:(exists rows; now split)) as (i & IN & EQ & ST).
    exists i. split; [exact IN|]. split; [|exact ST]. rewrite <- EQ. split; [exact SL|]. split; [exact CN|exact GN].
  Qed.
End Streams.
