(** Concrete cases for the properties of P_Conc.v. *)
From Coq Require Import List NArith ZArith Bool Arith Lia.
From Verif Require Import Base FloatModel MetricModel MetricExamples ConcModel ConcSpec.
Import ListNotations.

Definition at_nat {A} (l : list (list A)) (i : nat) : list A := nth i l [].

(** Counter: two writers and a reader. *)
Definition ex_counter_calls : list (list counter_op) := [[KInc; KIncBy 40]; [KIncBy 7]; [KRead; KRead]].
Definition ex_counter_schedule : schedule := [(2, 0); (0, 0); (2, 0); (1, 0); (0, 0); (1, 0); (2, 0); (0, 0); (0, 0); (2, 0)]%nat.
Definition ex_counter_end := run counter_machine (calls (at_nat ex_counter_calls)) ex_counter_schedule (start_config (2 ^ 64 - 3)%N).

(** Gauge: a set among increments. *)
Definition ex_gauge_calls : list (list igauge_op) := [[IWrite GInc; IWrite (GSet 10)]; [IWrite (GDecBy 4); IWrite GDec]; [IRead]].
Definition ex_gauge_schedule : schedule := [(0, 0); (0, 0); (1, 0); (1, 0); (0, 0); (0, 0); (1, 0); (1, 0); (2, 0); (2, 0)]%nat.
Definition ex_gauge_end := run igauge_machine (calls (at_nat ex_gauge_calls)) ex_gauge_schedule (start_config 100%Z).
Definition ex_gauge_calls2 : list (list igauge_op) := [[IWrite GInc; IWrite (GIncBy 10)]; [IWrite (GDecBy 4); IWrite GDec]].
Definition ex_gauge_end2 := run igauge_machine (calls (at_nat ex_gauge_calls2))
  [(0, 0); (1, 0); (1, 0); (0, 0); (1, 0); (1, 0); (0, 0); (0, 0)]%nat (start_config (2 ^ 63 - 3)%Z).

(** Float gauge: thread 0 loads, thread 1 adds, thread 0 fails, fails spuriously,
    and succeeds. *)
Definition ex_float_calls : list (list float_op) := [[FWrite (FIncBy f_1_5)]; [FWrite (FIncBy f_half)]; [FRead]].
Definition ex_float_schedule : schedule :=
  [(0, 0); (0, 0); (1, 0); (1, 0); (1, 0); (0, 0); (0, 0); (0, 1); (0, 0); (2, 0); (0, 0); (2, 0)]%nat.
Definition ex_float_end := run float_machine (calls (at_nat ex_float_calls)) ex_float_schedule (start_config 0%N).
(** After the third step: thread 0 is about to exchange. *)
Definition ex_float_mid := run float_machine (calls (at_nat ex_float_calls)) (firstn 5 ex_float_schedule) (start_config 0%N).

(** Histogram: two observers and a collection that comes while both are
    between the bucket and the sum. *)
Definition ex_hist_calls : list (list hist_op) := [[HObserve 0 f_half]; [HObserve 2 f_three; HObserve 1 f_two]; [HSample; HSample]].
Definition ex_hist_schedule : schedule :=
  ([(0, 0); (0, 0); (0, 0)] ++ [(1, 0); (1, 0); (1, 0)] ++ [(2, 0); (2, 0); (2, 0)] ++ [(0, 0); (1, 0); (0, 0); (1, 0); (2, 0)] ++
   repeat (0, 0) 3 ++ repeat (1, 0) 4 ++ repeat (2, 0) 7 ++ repeat (1, 0) 9 ++ repeat (2, 0) 10)%nat.
Definition ex_hist_end := run hist_machine (calls (at_nat ex_hist_calls)) ex_hist_schedule
  (start_config {| ch_lock := rw_free; ch_state := hist_new 2 |}).
