(** Properties C18, C20, C21 and C26: metrics shared by threads.  [prog] is any
    program (the next call of a thread may depend on its earlier results), [s]
    any schedule. *)
From Coq Require Import List NArith ZArith Bool Arith Lia Sorted.
From Verif Require Import Base FloatModel MetricModel MetricExamples ConcModel ConcSpec ConcProofs ConcHist ConcTheorems ConcExamples.
Import ListNotations.

(** C18.  When no call is in progress the counter is its first value plus the
    increments of all calls made. *)
Theorem C18_no_lost_increments : forall prog s v0 n, (v0 < 2 ^ 64)%N ->
  let c := run counter_machine prog s (start_config v0) in
  quiescent c -> (forall i, (n <= i)%nat -> t_done (c_th c i) = []) ->
  Z.of_N (c_sh c) = ((Z.of_N v0 + total_done counter_delta n c) mod 2 ^ 64)%Z.
Proof. exact counter_total. Qed.
Print Assumptions C18_no_lost_increments.

(** There is an order of the calls, respecting real time, that explains every
    result, and in it reads do not decrease unless the total passes 2^64. *)
Theorem C18_reads_monotone : forall v0 prog, exists L : schedule -> list (@entry counter_op N),
  real_time_order L (fun s => run counter_machine prog s (start_config v0)) /\
  forall s, let c := run counter_machine prog s (start_config v0) in
    explains (L s) c /\
    (exists st, legal (pure_spec counter_eff) v0 (L s) st) /\
    ((Z.of_N v0 + sum_over (fun e => counter_delta (snd (fst e))) (L s) < 2 ^ 64)%Z ->
     StronglySorted N.le (counter_reads (L s))).
Proof. exact counter_monotone. Qed.
Print Assumptions C18_reads_monotone.

Example C18_nonvacuous :
  c_sh ex_counter_end = 45%N /\ total_done counter_delta 3 ex_counter_end = 48%Z /\
  (forall i, t_cur (c_th ex_counter_end i) = None) /\ (forall i, (3 <= i)%nat -> t_done (c_th ex_counter_end i) = []).
Proof. repeat split; try (vm_compute; reflexivity); intros [|[|[|i]]]; try reflexivity; lia. Qed.

(** C20.  Without sets: the first value and the sum of all deltas, wrapped. *)
Theorem C20_sums : forall prog s v0 n, (- 2 ^ 63 <= v0 < 2 ^ 63)%Z ->
  let c := run igauge_machine prog s (start_config v0) in
  quiescent c -> (forall i, (n <= i)%nat -> t_done (c_th c i) = []) ->
  (forall i d, In d (t_done (c_th c i)) -> is_set (fst d) = false) ->
  c_sh c = to_i64 (v0 + total_done gauge_delta n c).
Proof. exact gauge_total. Qed.
Print Assumptions C20_sums.

(** With sets: the last value set and the deltas after it, in an order of the
    calls that respects real time; every read likewise. *)
Theorem C20_last_set : forall v0 prog, (- 2 ^ 63 <= v0 < 2 ^ 63)%Z -> exists L : schedule -> list (@entry igauge_op Z),
  real_time_order L (fun s => run igauge_machine prog s (start_config v0)) /\
  forall s, let c := run igauge_machine prog s (start_config v0) in
    explains (L s) c /\
    ((forall i x r, In (i, IWrite (GSet x), r) (L s) -> (- 2 ^ 63 <= x < 2 ^ 63)%Z) ->
     (forall pre i r post, L s = pre ++ (i, IRead, r) :: post ->
        let (base, rest) := since_set v0 (ops_of pre) in r = to_i64 (base + sum_over gauge_delta rest)) /\
     (quiescent c -> let (base, rest) := since_set v0 (ops_of (L s)) in
        c_sh c = to_i64 (base + sum_over gauge_delta rest))).
Proof. exact gauge_any_order. Qed.
Print Assumptions C20_last_set.

Example C20_nonvacuous :
  c_sh ex_gauge_end2 = (- 2 ^ 63 + 3)%Z /\ total_done gauge_delta 2 ex_gauge_end2 = 6%Z /\
  (forall i, t_cur (c_th ex_gauge_end2 i) = None) /\
  c_sh ex_gauge_end = 9%Z /\ t_done (c_th ex_gauge_end 2) = [(IRead, 9%Z)] /\
  since_set 100 [IWrite GInc; IWrite (GDecBy 4); IWrite (GSet 10); IWrite GDec] = (10%Z, [IWrite GDec]).
Proof. repeat split; try (vm_compute; reflexivity); intros [|[|[|i]]]; reflexivity. Qed.

(** C21.  [float_spec] is the sequential gauge; the schedule includes spurious
    failures of compare_exchange_weak. *)
Theorem C21_linearizable : forall x prog, exists L : schedule -> list (@entry float_op N),
  real_time_order L (fun s => run float_machine prog s (start_config x)) /\
  forall s, explains (L s) (run float_machine prog s (start_config x)) /\
    exists st, legal float_spec x (L s) st /\
      (quiescent (run float_machine prog s (start_config x)) -> c_sh (run float_machine prog s (start_config x)) = st).
Proof. exact float_in_real_time. Qed.
Print Assumptions C21_linearizable.

(** Once spurious failures stop, some call ends whenever a thread has had four turns. *)
Theorem C21_lock_free : forall prog s (c : config N float_op N float_mic) i, active prog c i ->
  Forall (fun ic => snd ic = 0%nat) s -> (4 <= turns i s)%nat ->
  more_done c (run float_machine prog s c).
Proof. exact float_lock_free. Qed.
Print Assumptions C21_lock_free.

Example C21_nonvacuous :
  c_sh ex_float_end = f_two /\ (forall i, t_cur (c_th ex_float_end i) = None) /\
  t_done (c_th ex_float_end 2) = [(FRead, f_two)] /\
  active (calls (at_nat ex_float_calls)) ex_float_mid 0 /\ c_sh ex_float_mid = f_half.
Proof.
  repeat split; try (vm_compute; reflexivity); try (intros [|[|[|i]]]; vm_compute; reflexivity).
  left. vm_compute. discriminate.
Qed.

(** C26.  Every sample is the histogram of the observations before it in an
    order that respects real time, buckets, inf and sum together. *)
Theorem C26_snapshots : forall n prog, exists L : schedule -> list (@entry hist_op hist_res),
  real_time_order L (fun s => run hist_machine prog s (start_config {| ch_lock := rw_free; ch_state := hist_new n |})) /\
  forall s, let c := run hist_machine prog s (start_config {| ch_lock := rw_free; ch_state := hist_new n |}) in
    explains (L s) c /\
    ((forall i b x r, In (i, HObserve b x, r) (L s) -> (b <= n)%nat) ->
     (forall pre i r post, L s = pre ++ (i, HSample, r) :: post ->
        exists h, observe_seq (observations pre) (hist_new n) = Done h /\ r = Some (h_buckets h, h_inf h, h_sum h)) /\
     (quiescent c -> observe_seq (observations (L s)) (hist_new n) = Done (ch_state (c_sh c)))).
Proof. exact snapshots_consistent. Qed.
Print Assumptions C26_snapshots.

Example C26_nonvacuous :
  t_done (c_th ex_hist_end 2) =
    [(HSample, Some ([1; 0], 1, f_add f_half f_three)%N);
     (HSample, Some ([1; 1], 1, f_add (f_add f_half f_three) f_two)%N)] /\
  (forall i, t_cur (c_th ex_hist_end i) = None).
Proof. split; [vm_compute; reflexivity|]. intros [|[|[|i]]]; vm_compute; reflexivity. Qed.
