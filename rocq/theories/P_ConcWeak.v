(** Property C66: counters, gauges and histograms under the memory model of atomics. *)
From Coq Require Import List NArith ZArith Bool Arith Lia.
From Verif Require Import Base FloatModel MetricModel ConcModel ConcSpec ConcWeakModel ConcWeakSpec ConcWeakTheorems ConcWeakExamples.
Import ListNotations.

(** Whatever the memory model allows, one order of the increments explains all
    reads of a counter, and the reads of one thread only move forward in it. *)
Theorem C66_counter_order : forall E ks, consistent E -> calls_of counter_does E ks ->
  exists order seen, order_of_changes E ks increments order /\
    (forall p k, nth_error ks p = Some k -> increments (k_op k) = false ->
       explained E ks counted order (x_init E 0) k (k_res k) (seen p)) /\
    (forall p q k k', nth_error ks p = Some k -> nth_error ks q = Some k' ->
       increments (k_op k) = false -> increments (k_op k') = false -> before E k k' ->
       exists more, seen q = seen p ++ more).
Proof. exact counter_order. Qed.
Print Assumptions C66_counter_order.

(** A read after all increments is their exact total.  Otherwise, below 2^64, it
    is at least what happened before, and leaves at least what happens after. *)
Theorem C66_counter_read : forall E ks p k, consistent E -> calls_of counter_does E ks ->
  nth_error ks p = Some k -> k_op k = KRead -> (x_init E 0 < 2 ^ 64)%N ->
  ((forall q k', nth_error ks q = Some k' -> increments (k_op k') = true -> before E k' k) ->
   k_res k = ((x_init E 0 + all_added ks) mod 2 ^ 64)%N) /\
  ((x_init E 0 + all_added ks < 2 ^ 64)%N ->
   (forall qs, NoDup qs -> (forall q, In q qs -> exists k', nth_error ks q = Some k' /\ before E k' k) ->
      (x_init E 0 + added ks qs <= k_res k)%N) /\
   (forall qs, NoDup qs -> (forall q, In q qs -> exists k', nth_error ks q = Some k' /\ before E k k') ->
      (k_res k + added ks qs <= x_init E 0 + all_added ks)%N)).
Proof. exact counter_read. Qed.
Print Assumptions C66_counter_read.

(** Two concurrent increments, reads that see one or both, a read after both. *)
Example C66_counter_case : consistent (execution_of ex_counter_F) /\ calls_of counter_does (execution_of ex_counter_F) ex_counter_ks /\
  map k_res ex_counter_ks = [0; 0; 2; 3; 3]%N /\ all_added ex_counter_ks = 3%N /\
  (forall q k', nth_error ex_counter_ks q = Some k' -> increments (k_op k') = true ->
     before (execution_of ex_counter_F) k' (call KRead 3%N [4])).
Proof.
  split; [apply ex_counter_ok|]. split; [apply ex_counter_ok|]. split; [reflexivity|]. split; [reflexivity|].
  intros [|[|[|[|[|q]]]]] k' Q I; cbn in Q; try (injection Q as <-); try discriminate; [| |destruct q; discriminate];
    intros e f [<-|[]] [<-|[]]; apply inb_ok; reflexivity.
Qed.

Theorem C66_gauge_order : forall E ks, consistent E -> calls_of igauge_does E ks ->
  exists order seen, order_of_changes E ks igauge_writes order /\
    (forall p k, nth_error ks p = Some k -> igauge_writes (k_op k) = false ->
       explained E ks gauge_result order (x_init E 0) k (k_res k) (seen p)) /\
    (forall p q k k', nth_error ks p = Some k -> nth_error ks q = Some k' ->
       igauge_writes (k_op k) = false -> igauge_writes (k_op k') = false -> before E k k' ->
       exists more, seen q = seen p ++ more).
Proof. exact igauge_order. Qed.
Print Assumptions C66_gauge_order.

(** The last read does not see a concurrent set. *)
Example C66_gauge_case : consistent (execution_of ex_gauge_F) /\ calls_of igauge_does (execution_of ex_gauge_F) ex_gauge_ks /\
  map k_res ex_gauge_ks = [0; 0; 4; 0; 4]%Z.
Proof. split; [apply ex_gauge_ok|]. split; [apply ex_gauge_ok|reflexivity]. Qed.

(** Without [set], a read after all updates is the sum of their deltas, wrapped. *)
Theorem C66_gauge_read : forall E ks p k, consistent E -> calls_of igauge_does E ks ->
  nth_error ks p = Some k -> k_op k = IRead -> (- 2 ^ 63 <= x_init E 0 < 2 ^ 63)%Z ->
  (forall k', In k' ks -> is_set (k_op k') = false) ->
  (forall q k', nth_error ks q = Some k' -> igauge_writes (k_op k') = true -> before E k' k) ->
  k_res k = wrapped (x_init E 0 + fold_right Z.add 0%Z (map (fun k' => gauge_delta (k_op k')) ks)).
Proof. exact igauge_read. Qed.
Print Assumptions C66_gauge_read.

Example C66_gauge_read_case : consistent (execution_of ex_gauge_sum_F) /\ calls_of igauge_does (execution_of ex_gauge_sum_F) ex_gauge_sum_ks /\
  (forall k', In k' ex_gauge_sum_ks -> is_set (k_op k') = false) /\
  (forall q k', nth_error ex_gauge_sum_ks q = Some k' -> igauge_writes (k_op k') = true ->
     before (execution_of ex_gauge_sum_F) k' (call IRead 4%Z [2])).
Proof.
  split; [apply ex_gauge_sum_ok|]. split; [apply ex_gauge_sum_ok|]. split; [intros k' [<-|[<-|[<-|[]]]]; reflexivity|].
  intros [|[|[|q]]] k' Q I; cbn in Q; try (injection Q as <-); try discriminate; [| |destruct q; discriminate];
    intros e f [<-|[]] [<-|[]]; apply inb_ok; reflexivity.
Qed.

Theorem C66_float_order : forall E ks, consistent E -> calls_of float_does E ks ->
  exists order seen, order_of_changes E ks float_writes order /\
    (forall p k, nth_error ks p = Some k -> float_writes (k_op k) = false ->
       explained E ks float_result order (x_init E 0) k (k_res k) (seen p)) /\
    (forall p q k k', nth_error ks p = Some k -> nth_error ks q = Some k' ->
       float_writes (k_op k) = false -> float_writes (k_op k') = false -> before E k k' ->
       exists more, seen q = seen p ++ more).
Proof. exact float_order. Qed.
Print Assumptions C66_float_order.

(** Two increments, one of which fails once and tries again. *)
Example C66_float_case : consistent (execution_of ex_float_F) /\ calls_of float_does (execution_of ex_float_F) ex_float_ks /\
  map (fun k => length (k_accesses k)) ex_float_ks = [4; 2; 1].
Proof. split; [apply ex_float_ok|]. split; [apply ex_float_ok|reflexivity]. Qed.

(** With the lock of the histogram, a sample has exactly the observations before
    it: every bucket has their number, and the sum is theirs, in an order that all
    samples share. *)
Theorem C66_histogram_samples : forall n E ks, consistent E -> calls_of (hist_does n) E ks -> locked E ks ->
  (forall c, x_init E c < 2 ^ 64)%N ->
  exists order seen, order_of_changes E ks observing order /\
    (forall p k, nth_error ks p = Some k -> k_op k = HSample ->
       sample_of n E (ops_of_calls ks (seen p)) (k_res k) /\ (exists unseen, order = seen p ++ unseen) /\
       forall q, In q (seen p) <-> exists k', nth_error ks q = Some k' /\ observing (k_op k') = true /\ before E k' k) /\
    (forall p q k k', nth_error ks p = Some k -> nth_error ks q = Some k' -> k_op k = HSample -> k_op k' = HSample ->
       before E k k' -> exists more, seen q = seen p ++ more).
Proof. exact histogram_samples. Qed.
Print Assumptions C66_histogram_samples.

(** Two observations at the same time, a sample, another observation. *)
Example C66_histogram_case : consistent (execution_of ex_hist_F) /\ calls_of (hist_does 1) (execution_of ex_hist_F) ex_hist_ks /\
  locked (execution_of ex_hist_F) ex_hist_ks /\ nth_error (map k_res ex_hist_ks) 2 = Some (Some ([1], 1, f_of_Z 3)%N).
Proof. split; [apply ex_hist_ok|]. split; [apply ex_hist_ok|]. split; [apply ex_hist_ok|reflexivity]. Qed.

(** Nothing more holds of two counters: a thread increments the first and then the
    second; another reads the second incremented and then the first not. *)
Theorem C66_no_common_order : exists E (ks : list (wcall (nat * counter_op) N)) k0 k1 k2 k3,
  consistent E /\ calls_of counters_do E ks /\ ks = [k0; k1; k2; k3] /\
  (k_op k0 = (0, KInc) /\ k_op k1 = (1, KInc) /\ before E k0 k1) /\
  (k_op k2 = (1, KRead) /\ k_op k3 = (0, KRead) /\ before E k2 k3) /\
  k_res k2 = 1%N /\ k_res k3 = 0%N.
Proof. exact two_counters_apart. Qed.
Print Assumptions C66_no_common_order.
