(** Properties C22-C25 and C27-C31: what single calls do to counters, gauges,
    histograms and timers.  [v] is the version of the standard library's
    partition_point. *)
From Coq Require Import String List NArith ZArith Bool Lia.
From Verif Require Import Base Writer NameModel NameSpec LabelModel FloatModel FloatOrder EncoderModel FamilyModel TextModel TextSpec
  EncoderSpec MetricModel MetricSpec MetricProofs MetricTheorems HistTheorems TextExamples MetricExamples FloatAccuracy.
Import ListNotations.
Local Open Scope N_scope.

(** C22.  [agrees bd over shared mut]: same state, or a panic of [mut] that
    happens only in debug builds and only if [over]. *)
Theorem C22_counter : forall bd x c,
  agrees bd (2 ^ 64 <= c + x) (counter_inc_by x c) (counter_inc_by_mut bd x c) /\
  agrees bd (2 ^ 64 <= c + 1) (counter_inc c) (counter_inc_mut bd c).
Proof. exact counter_agrees. Qed.
Print Assumptions C22_counter.

Theorem C22_gauge : forall bd op g, (match op with GSet x => - 2 ^ 63 <= x < 2 ^ 63 | _ => True end)%Z ->
  agrees bd (~ (- 2 ^ 63 <= gauge_exact op g < 2 ^ 63)%Z) (gauge_shared op g) (gauge_mut bd op g).
Proof. exact gauge_agrees. Qed.
Print Assumptions C22_gauge.

Theorem C22_float_gauge : forall op g, fgauge_mut op g = fgauge_shared op g.
Proof. exact fgauge_agrees. Qed.
Print Assumptions C22_float_gauge.

Theorem C22_histogram : forall bd bucket x h,
  (exists h', hist_observe bucket x h = Done h' /\
     agrees bd (2 ^ 64 <= bucket_count bucket h + 1) h' (hist_observe_mut bd bucket x h)) \/
  (hist_observe bucket x h = Panic /\ hist_observe_mut bd bucket x h = Panic).
Proof. exact hist_agrees. Qed.
Print Assumptions C22_histogram.

(** Observing through a unique reference and through a guard. *)
Theorem C22_histogram_references : forall v ts x h, mut_observe v ts x h = guard_observe v ts x h.
Proof. exact hist_guards_agree. Qed.
Print Assumptions C22_histogram_references.

Example C22_nonvacuous :
  counter_inc_by 5 (2 ^ 64 - 2) = 3 /\ counter_inc_by_mut Release 5 (2 ^ 64 - 2) = Done 3 /\
  counter_inc_by_mut Debug 5 (2 ^ 64 - 2) = Panic /\
  gauge_shared (GDecBy 7) (- 2 ^ 63 + 3) = (2 ^ 63 - 4)%Z /\ gauge_mut Debug (GDecBy 7) (- 2 ^ 63 + 3) = Panic /\
  hist_observe 1 f_two ex_hist = hist_observe_mut Debug 1 f_two ex_hist /\
  hist_observe 3 f_two ex_hist = Panic.
Proof. vm_compute. repeat split. Qed.

(** C23.  [fv] is the value of a finite float in units of 2^-2200 and [RV]
    rounds such a value to the nearest float, ties to even. *)
Theorem C23_bits : forall x g, af_get (fgauge_shared (FSet x) g) = x /\ af_get (af_new x) = x /\
  af_get_ex (fgauge_mut (FSet x) g) = x.
Proof. exact float_gauge_bits. Qed.
Print Assumptions C23_bits.

Theorem C23_increment : forall x g,
  f_is_finite g = true -> f_is_finite x = true -> fv (fgauge_shared (FIncBy x) g) = RV (fv g + fv x).
Proof. exact float_gauge_inc. Qed.
Print Assumptions C23_increment.

Theorem C23_decrement : forall x g,
  fgauge_shared (FDecBy x) g = f_sub g x /\ fgauge_shared FDec g = f_sub g f_one /\
  (f_is_finite g = true -> f_is_finite x = true -> fv (fgauge_shared (FDecBy x) g) = RV (fv g - fv x)).
Proof. exact float_gauge_dec. Qed.
Print Assumptions C23_decrement.

(** [inc] and [dec] are by 1, here [2 ^ SC]. *)
Theorem C23_one : forall g, f_is_finite g = true ->
  fv (fgauge_shared FInc g) = RV (fv g + 2 ^ SC) /\ fv (fgauge_shared FDec g) = RV (fv g - 2 ^ SC) /\
  fgauge_mut FInc g = fgauge_shared FInc g /\ fgauge_mut FDec g = fgauge_shared FDec g.
Proof. exact float_gauge_one. Qed.
Print Assumptions C23_one.

(** The compare-exchange loop of one thread, with spurious failures. *)
Theorem C23_loop : forall fails x g fuel, (fails < fuel)%nat ->
  af_inc_by_loop fuel fails x g = Some (fgauge_shared (FIncBy x) g).
Proof. exact float_gauge_loop. Qed.
Print Assumptions C23_loop.

Example C23_nonvacuous :
  fgauge_shared (FDecBy f_1_5) f_two = f_half /\ fgauge_shared FDec f_1_5 = f_half /\
  fgauge_shared (FIncBy f_one) f_two = f_three /\ fgauge_shared FInc f_two = f_three /\
  f_is_finite f_two = true /\ f_is_finite f_1_5 = true /\
  af_get (fgauge_shared (FSet f_nan) f_two) = f_nan /\ af_get (fgauge_shared (FSet (f_neg 0)) f_two) <> 0.
Proof. vm_compute. repeat split; discriminate. Qed.

(** C24 *)
Theorem C24_placement : forall v bd ts x h, with_buckets bd ts = Done ts ->
  (forall t, ts = [t] -> f_is_nan t = false) -> f_is_nan x = false -> length (h_buckets h) = length ts ->
  exists h', guard_observe v ts x h = Done h' /\ h_sum h' = f_add (h_sum h) x /\
    ((exists k, first_fit ts x k /\ one_more k (h_buckets h) (h_buckets h') /\ h_inf h' = h_inf h) \/
     (fits_nowhere ts x /\ h_buckets h' = h_buckets h /\ h_inf h' = (h_inf h + 1) mod W64)).
Proof. exact observe_placement. Qed.
Print Assumptions C24_placement.

(** The assertion never fires, whatever the thresholds and the value. *)
Theorem C24_never_panics : forall v ts x h, length (h_buckets h) = length ts ->
  exists h', guard_observe v ts x h = Done h'.
Proof. exact observe_total. Qed.
Print Assumptions C24_never_panics.

Example C24_nonvacuous : with_buckets Debug ex_ts = Done ex_ts /\ with_buckets Release ex_ts = Done ex_ts.
Proof. exact ex_thresholds. Qed.
Example C24_cases :
  guard_observe StdFrom182 ex_ts f_two ex_hist = Done {| h_buckets := [1; 3]; h_inf := 1; h_sum := f_of_Z 9 |} /\
  guard_observe StdBefore182 ex_ts f_three ex_hist = Done {| h_buckets := [1; 2]; h_inf := 2; h_sum := f_of_Z 10 |}.
Proof. vm_compute. auto. Qed.

(** C25: counts in memory, *)
Theorem C25_counts : forall v bd ts xs, with_buckets bd ts = Done ts ->
  (forall t, ts = [t] -> f_is_nan t = false) -> no_nan xs -> (N.of_nat (length xs) < 2 ^ 64) ->
  exists h, observe_all v ts xs (hist_new (length ts)) = Done h /\ length (h_buckets h) = length ts /\
    (forall k t, nth_error ts k = Some t -> first_buckets (S k) (h_buckets h) = count_le xs t) /\
    first_buckets (length ts) (h_buckets h) + h_inf h = N.of_nat (length xs) /\
    h_sum h = float_sum xs.
Proof. exact observations_counted. Qed.
Print Assumptions C25_counts.

(** the lines of the text format, *)
Theorem C25_export : forall ryu bd v ts xs g pre nss base ls post w h, float_text_ok ryu ->
  with_buckets bd ts = Done ts -> Forall (fun t => t < 2 ^ 64) ts -> Forall (fun x => x < 2 ^ 64) xs ->
  (forall t, ts = [t] -> f_is_nan t = false) -> no_nan xs -> N.of_nat (length xs) < 2 ^ 63 ->
  observe_all v ts xs (hist_new (length ts)) = Done h ->
  group_events [] g (pre ++ EvSample nss base ls (hist_sample ts h) :: post) ->
  Forall event_ok (pre ++ post) -> Forall valid_metric_name (base :: nss) -> labels_valid ls -> reliable w ->
  exists s out items before lines after,
    collect_group (text_encoder ryu bd) g (text_new w) = (s, ROk) /\
    w_out (te_writer s) = w_out w ++ out /\ parse out = Some items /\
    filter meaningful items = before ++ lines ++ after /\
    observed_lines ryu nss base ls ts xs lines.
Proof. exact export_observed. Qed.
Print Assumptions C25_export.

(** and their order. *)
Theorem C25_monotone : forall xs a b, f_lt a b = true -> count_le xs a <= count_le xs b.
Proof. exact counts_monotone. Qed.
Print Assumptions C25_monotone.
Theorem C25_bounded : forall xs t, count_le xs t <= N.of_nat (length xs).
Proof. exact counts_bounded. Qed.
Print Assumptions C25_bounded.

Example C25_nonvacuous : no_nan ex_ts /\ no_nan ex_xs.
Proof. exact ex_no_nan. Qed.
Example C25_observed : observe_all StdFrom182 ex_ts ex_xs (hist_new 2) = Done ex_hist /\
  observe_all StdBefore182 ex_ts ex_xs (hist_new 2) = Done ex_hist.
Proof. exact ex_observed. Qed.
Example C25_group : group_events [] ex_hist_group
  ([EvType [] (str "errors") KCounter; EvSample [] (str "errors") (ex_label "x") (MCounter 3);
    EvType [] (str "latency") KHistogram] ++
   EvSample [] (str "latency") (ex_label "x") (hist_sample ex_ts ex_hist) :: []).
Proof. exact ex_hist_events. Qed.
Example C25_counted : map (count_le ex_xs) ex_ts = [1; 3].
Proof. vm_compute. reflexivity. Qed.

(** C27 *)
Theorem C27_validation : forall bd ts,
  (ts <> [] /\ ascending ts -> with_buckets bd ts = Done ts) /\
  (~ (ts <> [] /\ ascending ts) -> with_buckets bd ts = Panic).
Proof. exact with_buckets_exact. Qed.
Print Assumptions C27_validation.
Example C27_cases :
  with_buckets Debug [f_half; f_one; f_two] = Done [f_half; f_one; f_two] /\
  with_buckets Debug [f_half; f_two; f_one] = Panic /\ with_buckets Release [f_half; f_half] = Panic /\
  with_buckets Release [f_half; f_nan] = Panic /\ with_buckets Release [] = Panic.
Proof. vm_compute. repeat split. Qed.

(** C28 is false: *)
Theorem C28_well_formed_refuted :
  (exists t, with_buckets Debug [t] = Done [t] /\ f_is_nan t = true) /\
  (exists ts, with_buckets Debug ts = Done ts /\ length ts = 2%nat /\ In f_infinity ts) /\
  (exists start width ts, f_is_finite start = true /\ f_is_finite width = true /\
     linear_buckets 2 start width = Done ts /\ nth_error ts 0 = nth_error ts 1 /\ nth_error ts 0 <> None) /\
  (exists start width ts t, linear_buckets 2 start width = Done ts /\ In t ts /\ f_is_nan t = true) /\
  (exists start width ts t, f_is_finite start = true /\ f_is_finite width = true /\
     linear_buckets 3 start width = Done ts /\ In t ts /\ f_is_infinite t = true) /\
  (exists start factor, f_is_finite start = true /\ f_is_finite factor = true /\
     forall powi, (forall f, powi f 0%Z = f_one) -> (forall f, powi f 1%Z = f) ->
     exists ts, exponential_buckets powi 2 start factor = Done ts /\ nth_error ts 0 = nth_error ts 1 /\ nth_error ts 0 <> None).
Proof. exact thresholds_not_well_formed. Qed.
Print Assumptions C28_well_formed_refuted.

(** What holds instead. *)
Theorem C28_with_buckets : forall bd ts, with_buckets bd ts = Done ts -> (2 <= length ts)%nat ->
  no_nan ts /\
  (forall i j a b, (i < j)%nat -> nth_error ts i = Some a -> nth_error ts j = Some b -> f_lt a b = true) /\
  (forall i t, nth_error ts i = Some t -> (0 < i < length ts - 1)%nat -> f_is_finite t = true).
Proof. exact with_buckets_well_formed. Qed.
Print Assumptions C28_with_buckets.

Theorem C28_linear_integers : forall n a w, (0 < w)%Z ->
  (- 2 ^ 53 <= a)%Z -> (a <= 2 ^ 53)%Z -> (w * Z.of_nat n <= 2 ^ 53)%Z -> (a + w * Z.of_nat n <= 2 ^ 53)%Z ->
  exists ts, linear_buckets n (f_of_Z a) (f_of_Z w) = Done ts /\
    (forall i t, nth_error ts i = Some t -> f_cmp t (f_of_Z (a + w * Z.of_nat i)) = Some Eq) /\
    well_formed ts.
Proof. exact linear_buckets_integers. Qed.
Print Assumptions C28_linear_integers.

Theorem C28_exponential : forall powi n start factor,
  (Z.of_nat n <= 2 ^ 31)%Z -> f_is_finite start = true ->
  f_gt start 0 = true -> f_gt factor f_one = true ->
  (forall i, (0 <= i < Z.of_nat n)%Z -> f_is_finite (powi factor i) = true) ->
  (forall i j, (0 <= i <= j)%Z -> (j < Z.of_nat n)%Z -> f_le (powi factor i) (powi factor j) = true) ->
  exists ts, exponential_buckets powi n start factor = Done ts /\ length ts = n /\
    (powi factor 0%Z = f_one -> forall t, nth_error ts 0 = Some t -> f_cmp t start = Some Eq) /\
    forall i j a b, (i <= j)%nat -> nth_error ts i = Some a -> nth_error ts j = Some b -> f_le a b = true.
Proof. exact exponential_buckets_monotone. Qed.
Print Assumptions C28_exponential.
Theorem C28_exponential_panics : forall powi n start factor,
  exponential_buckets powi n start factor = Panic <-> ~ (f_gt start 0 = true /\ f_gt factor f_one = true).
Proof. exact exponential_buckets_panics. Qed.
Print Assumptions C28_exponential_panics.

Example C28_integers : linear_buckets 3 (f_of_Z (-1)) (f_of_Z 2) = Done [f_of_Z (-1); f_of_Z 1; f_of_Z 3].
Proof. vm_compute. reflexivity. Qed.
Example C28_powers : exponential_buckets (fun f i => f_of_Z (2 ^ i)) 3 f_1_5 f_two = Done [f_1_5; f_of_Z 3; f_of_Z 6].
Proof. vm_compute. reflexivity. Qed.

(** C29 *)
Theorem C29_linear_monotone : forall n start width, (Z.of_nat n <= 2 ^ 64)%Z ->
  f_is_finite start = true -> f_is_finite width = true -> f_gt width 0 = true ->
  exists ts, linear_buckets n start width = Done ts /\ length ts = n /\
    (forall t, nth_error ts 0 = Some t -> f_cmp t start = Some Eq) /\
    (forall i j a b, (i <= j)%nat -> nth_error ts i = Some a -> nth_error ts j = Some b -> f_le a b = true).
Proof. exact linear_buckets_monotone. Qed.
Print Assumptions C29_linear_monotone.

Theorem C29_linear_panics : forall n start width,
  linear_buckets n start width = Panic <-> f_gt width 0 = false.
Proof. exact linear_buckets_panics. Qed.
Print Assumptions C29_linear_panics.

Example C29_cases :
  linear_buckets 3 f_half f_half = Done [f_half; f_one; f_1_5] /\
  linear_buckets 3 f_half 0 = Panic /\ linear_buckets 3 f_half f_nan = Panic.
Proof. vm_compute. repeat split. Qed.

(** C30 is false of every histogram with a bucket: *)
Theorem C30_nan_is_small_refuted : forall v t ts x h, f_is_nan x = true -> length (h_buckets h) = length (t :: ts) ->
  exists h', guard_observe v (t :: ts) x h = Done h' /\ one_more 0 (h_buckets h) (h_buckets h') /\
    h_inf h' = h_inf h /\ f_is_nan (h_sum h') = true.
Proof. exact nan_lowest. Qed.
Print Assumptions C30_nan_is_small_refuted.

(** and the sum is lost for good. *)
Theorem C30_sum_stays_nan : forall v ts xs h h', f_is_nan (h_sum h) = true ->
  observe_all v ts xs h = Done h' -> f_is_nan (h_sum h') = true.
Proof. exact nan_sum_sticky. Qed.
Print Assumptions C30_sum_stays_nan.

Example C30_case : guard_observe StdFrom182 ex_ts f_nan ex_hist =
  Done {| h_buckets := [2; 2]; h_inf := 1; h_sum := f_nan |}.
Proof. vm_compute. reflexivity. Qed.

(** C31, for any kind of target and way of recording that works on [ok] worlds, *)
Theorem C31_timers : forall T W observe_since (ok : W -> Prop),
  (forall (t : T) s n w, ok w -> exists w' d, observe_since t s n w = Done (w', d) /\ ok w') ->
  forall ops w, proper T ops -> ok w ->
    exists rs slots w', recordings T ops ops rs /\
      timer_run T W observe_since ops ([], w) = Done (slots, w') /\
      record_all T W observe_since rs w = Done w' /\
      NoDup (map (fun r => fst (fst (fst r))) rs) /\
      (forall i, In i (map (fun r => fst (fst (fst r))) rs) <-> exists o now, In o ops /\ records T i now o) /\
      (forall i now, In (TForget T i now) ops -> ~ In i (map (fun r => fst (fst (fst r))) rs)).
Proof. exact timers_record_once. Qed.
Print Assumptions C31_timers.

(** and for histograms: the elapsed seconds are observed. *)
Theorem C31_histogram_timers : forall v ts ops h, length (h_buckets h) = length ts ->
  proper unit ops ->
  exists rs slots h', recordings unit ops ops rs /\
    timer_run unit hist (since v ts) ops ([], h) = Done (slots, h') /\
    observe_all v ts (map seconds_of rs) h = Done h' /\
    NoDup (map (fun r => fst (fst (fst r))) rs) /\
    (forall i, In i (map (fun r => fst (fst (fst r))) rs) <-> exists o now, In o ops /\ records unit i now o) /\
    (forall i now, In (TForget unit i now) ops -> ~ In i (map (fun r => fst (fst (fst r))) rs)).
Proof. exact histogram_timers. Qed.
Print Assumptions C31_histogram_timers.

(** What a timer observes is a number and not negative. *)
Theorem C31_seconds : forall d, d_secs d < 2 ^ 64 -> d_nanos d < nanos_per_sec ->
  f_is_nan (as_secs_f64 d) = false /\ f_le 0 (as_secs_f64 d) = true.
Proof. exact duration_secs_sane. Qed.
Print Assumptions C31_seconds.

(** It differs from the exact number of seconds by at most one part in 2^51
    ([fv x] is [x * 2^SC], an integer). *)
Theorem C31_accuracy : forall d, d_secs d < 2 ^ 64 -> d_nanos d < nanos_per_sec ->
  let nanos := Z.of_N (d_secs d * 10 ^ 9 + d_nanos d) in
  f_is_finite (as_secs_f64 d) = true /\
  (2 ^ 51 * Z.abs (fv (as_secs_f64 d) * 10 ^ 9 - nanos * 2 ^ SC) <= nanos * 2 ^ SC)%Z.
Proof. exact seconds_accurate. Qed.
Print Assumptions C31_accuracy.
Example C31_accuracy_case : as_secs_f64 {| d_secs := 1; d_nanos := 500000000 |} = f_1_5 /\
  fv (as_secs_f64 {| d_secs := 0; d_nanos := 100000000 |}) <> (2 ^ SC / 10)%Z.
Proof. split; [vm_compute; reflexivity|vm_compute; discriminate]. Qed.
Theorem C31_elapsed : forall s n, d_nanos (elapsed s n) < nanos_per_sec /\
  d_secs (elapsed s n) * nanos_per_sec + d_nanos (elapsed s n) = n - s.
Proof. exact elapsed_nanos. Qed.
Print Assumptions C31_elapsed.

Example C31_nonvacuous : proper unit ex_ops.
Proof. exact ex_proper. Qed.
Example C31_recordings : recordings unit ex_ops ex_ops ex_recordings.
Proof. exact ex_recorded. Qed.
Example C31_run : timer_run unit hist (since StdFrom182 ex_ts) ex_ops ([], hist_new 2) =
  Done ([None; None; None], {| h_buckets := [0; 2]; h_inf := 0; h_sum := f_add f_1_5 f_two |}).
Proof. exact ex_timers_run. Qed.
