(** Property C81, protobuf: scrapes of vecs under the memory model of atomics through the
    protobuf encoder. *)
From Coq Require Import String List NArith ZArith Bool Arith Lia.
From Verif Require Import Base Writer NameModel NameSpec FloatModel MetricModel LabelModel EncoderModel TextModel TextSpec TextExamples
  EncoderSpec ProtoModel ProtoSpec ProtoEndSpec ProtoScrapeSpec ConcModel ConcSpec ConcScrapeModel ConcProtoSpec ConcProtoExamples
  ConcWeakModel ConcWeakSpec ConcWeakExamples ConcMomentSpec ConcWeakMomentSpec ConcWeakVecModel ConcWeakVecSpec ConcWeakProto
  P_ConcWeakVec P_ConcWeakScrape.
Import ListNotations.
Local Open Scope nat_scope.

(** Counters: the stream has one message for the vec, with a metric for each row under its
    labels, the double of a number that is exact after all increments, has those before
    the collection and none of those after it. *)
Theorem C81_proto_counter : forall (float_text : f64 -> bytes) bd (visit : nat -> labels),
forall E ks k rows, consistent E -> calls_of (vec_does counter_does) E ks -> In k ks -> k_res k = VRows rows -> rows <> [] ->
  (forall c, In c (map fst rows) -> x_init E c = 0%N /\ (all_added_at c ks < 2 ^ 64)%N) ->
  forall nss base help sc, pscrape_of nss base help (collected_family visit KCounter MCounter rows) sc ->
  exists out, pscrape_writes float_text bd sc out /\
    ((nlen out < 2 ^ 64)%N -> exists p, stream_has float_text sc out p /\
       message (full_name nss base []) help KCounter
         (fun c q => exists v, counter_shown float_text (visit c) v q /\
            ((forall k', In k' ks -> changes_at increments c (k_op k') = true -> before E k' k) -> v = all_added_at c ks) /\
            (forall qs, NoDup qs -> (forall q, In q qs -> exists k', nth_error ks q = Some k' /\ before E k' k) -> (added_at c ks qs <= v)%N) /\
            (forall qs, NoDup qs -> (forall q, In q qs -> exists k', nth_error ks q = Some k' /\ before E k k') -> (v + added_at c ks qs <= all_added_at c ks)%N))
         (map fst rows) p).
Proof. exact weak_counter_messages. Qed.
Print Assumptions C81_proto_counter.

(** Of two scrapes, one before the other, no counter falls. *)
Theorem C81_proto_rates : forall (float_text : f64 -> bytes) bd (visit : nat -> labels),
forall E ks k k' rows0 rows, consistent E -> calls_of (vec_does counter_does) E ks ->
  In k ks -> In k' ks -> k_res k = VRows rows0 -> k_res k' = VRows rows -> before E k k' -> rows0 <> [] ->
  (forall c, In c (map fst rows) -> x_init E c = 0%N /\ (all_added_at c ks < 2 ^ 64)%N) -> incl (map fst rows0) (map fst rows) ->
  forall nss base help sc0 sc, pscrape_of nss base help (collected_family visit KCounter MCounter rows0) sc0 ->
  pscrape_of nss base help (collected_family visit KCounter MCounter rows) sc ->
  exists out0 out, pscrape_writes float_text bd sc0 out0 /\ pscrape_writes float_text bd sc out /\
    ((nlen out0 < 2 ^ 64)%N -> (nlen out < 2 ^ 64)%N -> exists p0 p, stream_has float_text sc0 out0 p0 /\ stream_has float_text sc out p /\ counters_rise p0 p).
Proof. exact weak_counters_rise. Qed.
Print Assumptions C81_proto_rates.

(** Gauges of things in flight are between 0 and the number of threads. *)
Theorem C81_proto_in_flight : forall (float_text : f64 -> bytes) bd (visit : nat -> labels),
forall E ks k rows (ts : nat -> list (list nat)), consistent E -> calls_of (vec_does igauge_does) E ks -> In k ks -> k_res k = VRows rows -> rows <> [] ->
  (forall c, In c (map fst rows) -> threads_of E ks (changes_at igauge_writes c) (ts c) /\ x_init E c = 0%Z /\
     (forall k' u, In k' ks -> k_op k' = VCall c u -> is_set u = false) /\
     (forall t i, In t (ts c) -> initial i t -> (0 <= sum_over (fun op => gauge_delta (on_metric IRead op)) (ops_of_calls ks i) <= 1)%Z) /\
     (Z.of_nat (length (ts c)) < 2 ^ 63)%Z) ->
  forall nss base help sc, pscrape_of nss base help (collected_family visit KGauge MGauge rows) sc ->
  exists out, pscrape_writes float_text bd sc out /\
    ((nlen out < 2 ^ 64)%N -> exists p, stream_has float_text sc out p /\
       message (full_name nss base []) help KGauge
         (fun c q => exists z, gauge_shown float_text (visit c) z q /\ (0 <= z <= Z.of_nat (length (ts c)))%Z) (map fst rows) p).
Proof. exact weak_flight_messages. Qed.
Print Assumptions C81_proto_in_flight.

(** Gauges in any use, also set: an initial part of the writes of each thread. *)
Theorem C81_proto_gauge : forall (float_text : f64 -> bytes) bd (visit : nat -> labels),
forall E ks k rows (ts : nat -> list (list nat)), consistent E -> calls_of (vec_does igauge_does) E ks -> In k ks -> k_res k = VRows rows -> rows <> [] ->
  (forall c v, In (c, v) rows -> (- 2 ^ 63 <= v < 2 ^ 63)%Z) ->
  (forall c, In c (map fst rows) -> threads_of E ks (changes_at igauge_writes c) (ts c)) ->
  forall nss base help sc, pscrape_of nss base help (collected_family visit KGauge MGauge rows) sc ->
  exists out, pscrape_writes float_text bd sc out /\
    ((nlen out < 2 ^ 64)%N -> exists p, stream_has float_text sc out p /\
       message (full_name nss base []) help KGauge
         (fun c q => exists seen, gauge_shown float_text (visit c) (outcome_of ks gauge_at (x_init E c) seen) q /\ cut_at E ks (ts c) k seen) (map fst rows) p).
Proof. exact weak_gauge_messages. Qed.
Print Assumptions C81_proto_gauge.

(** A float gauge that one thread writes is shown, to the bit, at a moment of that thread. *)
Theorem C81_proto_float : forall (float_text : f64 -> bytes) bd (visit : nat -> labels),
forall E ks k rows (t : nat -> list nat), consistent E -> calls_of (vec_does float_does) E ks -> In k ks -> k_res k = VRows rows -> rows <> [] ->
  (forall c v, In (c, v) rows -> (v < 2 ^ 64)%N) ->
  (forall c, In c (map fst rows) -> threads_of E ks (changes_at ConcWeakSpec.float_writes c) [t c]) ->
  forall nss base help sc, pscrape_of nss base help (collected_family visit KFloatGauge MFloatGauge rows) sc ->
  exists out, pscrape_writes float_text bd sc out /\
    ((nlen out < 2 ^ 64)%N -> exists p, stream_has float_text sc out p /\
       message (full_name nss base []) help KFloatGauge
         (fun c q => exists i, initial i (t c) /\ float_gauge_shown float_text (visit c) (outcome_of ks float_at (x_init E c) i) q /\
            forall n k', nth_error ks n = Some k' -> In n (t c) -> (before E k' k -> In n i) /\ (before E k k' -> ~ In n i)) (map fst rows) p).
Proof. exact weak_float_messages. Qed.
Print Assumptions C81_proto_float.

(** The executions of C80 and C81, scraped. *)
Example C81_proto_case : exists out0 out,
  pscrape_writes ex_ryu Debug (ex_pscrape (collected_family ex_cell_visit KCounter MCounter [(1%nat, 5); (0%nat, 0)]%N)) out0 /\
  pscrape_writes ex_ryu Debug (ex_pscrape (collected_family ex_cell_visit KCounter MCounter [(1%nat, 6); (0%nat, 1)]%N)) out /\
  ((nlen out0 < 2 ^ 64)%N -> (nlen out < 2 ^ 64)%N -> exists p0 p,
     stream_has ex_ryu (ex_pscrape (collected_family ex_cell_visit KCounter MCounter [(1%nat, 5); (0%nat, 0)]%N)) out0 p0 /\
     stream_has ex_ryu (ex_pscrape (collected_family ex_cell_visit KCounter MCounter [(1%nat, 6); (0%nat, 1)]%N)) out p /\ counters_rise p0 p).
Proof.
  destruct C80_counter_case as (CON & KS & _ & _ & _ & B & _).
  refine (C81_proto_rates ex_ryu Debug ex_cell_visit _ _ ex_vec_k1 ex_vec_k2 _ _ CON KS _ _ eq_refl eq_refl B _ _ _ _ _ _ _ _ (ex_pscrape_of _ _ _ _ _ _) (ex_pscrape_of _ _ _ _ _ _)); try (cbn; tauto).
  - discriminate.
  - intros c [<-|[<-|[]]]; split; reflexivity.
  - intros c I. exact I.
Qed.
Example C81_proto_read : ex_pscrape_read (collected_family ex_cell_visit KCounter MCounter [(1%nat, 6); (0%nat, 1)]%N) =
  Some [(Some (str "up"%string), None, [([], None, Some (Some 4607182418800017408%N))]);
        (Some (str "app_hits"%string), Some (str "Requests."%string),
         [([Some (str "1"%string)], Some (Some 4618441417868443648%N), None); ([Some (str "0"%string)], Some (Some 4607182418800017408%N), None)])].
Proof. vm_compute. reflexivity. Qed.

Example C81_proto_in_flight_case : exists out,
  pscrape_writes ex_ryu Debug (ex_pscrape (collected_family ex_cell_visit KGauge MGauge [(0%nat, 2); (1%nat, 0)]%Z)) out /\
  ((nlen out < 2 ^ 64)%N -> exists p, stream_has ex_ryu (ex_pscrape (collected_family ex_cell_visit KGauge MGauge [(0%nat, 2); (1%nat, 0)]%Z)) out p /\
     message (str "app_hits"%string) (Some (str "Requests."%string)) KGauge
       (fun c q => exists z, gauge_shown ex_ryu (ex_cell_visit c) z q /\ (0 <= z <= Z.of_nat (length (ex_flight_ts c)))%Z) [0; 1] p).
Proof.
  destruct C81_in_flight_case as (CON & KS & H).
  exact (C81_proto_in_flight ex_ryu Debug ex_cell_visit _ _ ex_flight_k _ ex_flight_ts CON KS ltac:(cbn; tauto) eq_refl ltac:(discriminate) H _ _ _ _ (ex_pscrape_of _ _ _ _ _ _)).
Qed.

(** The gauges of C80, one of them set. *)
Example C81_proto_gauge_case : exists out,
  pscrape_writes ex_ryu Debug (ex_pscrape (collected_family ex_cell_visit KGauge MGauge [(0%nat, 2); (1%nat, 7)]%Z)) out /\
  ((nlen out < 2 ^ 64)%N -> exists p, stream_has ex_ryu (ex_pscrape (collected_family ex_cell_visit KGauge MGauge [(0%nat, 2); (1%nat, 7)]%Z)) out p /\
     message (str "app_hits"%string) (Some (str "Requests."%string)) KGauge
       (fun c q => exists seen, gauge_shown ex_ryu (ex_cell_visit c) (outcome_of ex_vgauge_ks gauge_at 0%Z seen) q /\
          cut_at (execution_of ex_vgauge_F) ex_vgauge_ks (match c with 0 => [[0; 3]; [1]] | _ => [[2]] end) ex_vgauge_k1 seen) [0; 1] p).
Proof.
  destruct C80_gauge_case as (CON & KS & _ & _ & _ & T0 & T1 & _).
  refine (C81_proto_gauge ex_ryu Debug ex_cell_visit _ _ ex_vgauge_k1 _ (fun c => match c with 0 => [[0; 3]; [1]] | _ => [[2]] end) CON KS _ eq_refl _ _ _ _ _ _ _ (ex_pscrape_of _ _ _ _ _ _)).
  - cbn. tauto.
  - discriminate.
  - intros c v [H|[H|[]]]; injection H as <- <-; lia.
  - intros c [<-|[<-|[]]]; [exact T0|exact T1].
Qed.

(** The float gauge of C80: set to 2, collected, and raised. *)
Example C81_proto_float_case : exists out,
  pscrape_writes ex_ryu Debug (ex_pscrape (collected_family ex_cell_visit KFloatGauge MFloatGauge [(1%nat, f_of_Z 2)])) out /\
  ((nlen out < 2 ^ 64)%N -> exists p, stream_has ex_ryu (ex_pscrape (collected_family ex_cell_visit KFloatGauge MFloatGauge [(1%nat, f_of_Z 2)])) out p /\
     message (str "app_hits"%string) (Some (str "Requests."%string)) KFloatGauge
       (fun c q => exists i, initial i [0; 1] /\ float_gauge_shown ex_ryu (ex_cell_visit c) (outcome_of ex_vfloat_ks float_at 0%N i) q /\
          forall n k', nth_error ex_vfloat_ks n = Some k' -> In n [0; 1] ->
            (before (execution_of ex_vfloat_F) k' ex_vfloat_k -> In n i) /\ (before (execution_of ex_vfloat_F) ex_vfloat_k k' -> ~ In n i)) [1] p).
Proof.
  destruct C80_float_case as (CON & KS & _ & TS & _).
  refine (C81_proto_float ex_ryu Debug ex_cell_visit _ _ ex_vfloat_k _ (fun _ => [0; 1]) CON KS _ eq_refl _ _ _ _ _ _ _ (ex_pscrape_of _ _ _ _ _ _)).
  - cbn. tauto.
  - discriminate.
  - intros c v [H|[]]. injection H as <- <-. vm_compute. reflexivity.
  - intros c [<-|[]]. exact TS.
Qed.
