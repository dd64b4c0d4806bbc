(** Metric states and the operations on them, one call at a time:
    core/src/metric/counter.rs, gauge.rs, histogram.rs.

    A guard ([MetricLockGuard], [MetricMut], metric.rs:28-76) is represented by
    the state it points to.  How calls of several threads interleave is the
    subject of ConcModel.v. *)
From Coq Require Import String List NArith ZArith Bool.
From Verif Require Import Base FloatModel EncoderModel.
Import ListNotations.
Local Open Scope N_scope.

(* ------------------------------------------------------------------ *)
(** ** Counters *)

(** [CounterState::inc_by] counter.rs:36-39 and [inc] 30-33: fetch_add wraps. *)
Definition counter_inc_by (x c : N) : N := wrap64 (c + x).
Definition counter_inc (c : N) : N := counter_inc_by 1 c.

(** [CounterMut::inc_by] counter.rs:49-51 and [inc] 45-47: [+=] on the u64. *)
Definition counter_inc_by_mut (bd : build) (x c : N) : outcome N := u_add bd c x.
Definition counter_inc_mut (bd : build) (c : N) : outcome N := counter_inc_by_mut bd 1 c.

(* ------------------------------------------------------------------ *)
(** ** Integer gauges *)

(** Rust's [a + b] and [a - b] on i64: overflow panics in debug builds and wraps
    in release builds. *)
Definition i_fits (z : Z) : bool := ((- 2 ^ 63 <=? z) && (z <? 2 ^ 63))%Z.
Definition i_add (bd : build) (a b : Z) : outcome Z :=
  match bd with
  | Debug => if i_fits (a + b) then Done (a + b)%Z else Panic
  | Release => Done (to_i64 (a + b))
  end.
(* gauge.rs:90-115 on i64 *)
Definition i_sub (bd : build) (a b : Z) : outcome Z :=
  match bd with
  | Debug => if i_fits (a - b) then Done (a - b)%Z else Panic
  | Release => Done (to_i64 (a - b))
  end.

(** The operations of [GaugeLockGuard]: gauge.rs:59-88 (fetch_add, fetch_sub,
    store) and of [GaugeMut]: 90-115 ([+=], [-=], [=]). *)
Inductive gauge_op := GInc | GIncBy (x : Z) | GDec | GDecBy (x : Z) | GSet (x : Z).

Definition gauge_shared (op : gauge_op) (g : Z) : Z :=
  match op with
  | GInc => to_i64 (g + 1)
  | GIncBy x => to_i64 (g + x)
  | GDec => to_i64 (g - 1)
  | GDecBy x => to_i64 (g - x)
  | GSet x => x
  end.

(* gauge.rs:90-115 *)
Definition gauge_mut (bd : build) (op : gauge_op) (g : Z) : outcome Z :=
  match op with
  | GInc => i_add bd g 1
  | GIncBy x => i_add bd g x
  | GDec => i_sub bd g 1
  | GDecBy x => i_sub bd g x
  | GSet x => Done x
  end.

(* ------------------------------------------------------------------ *)
(** ** Atomic floats: gauge.rs:301-360 *)

(** The cell is an [AtomicU64]; [to_bits] and [from_bits] do nothing in this
    representation. *)
Definition to_bits (x : f64) : N := x.
Definition from_bits (b : N) : f64 := b.

(** [ZERO] 309-311, [new] 313-317 *)
Definition af_zero : N := 0.
Definition af_new (x : f64) : N := to_bits x.

(** [set] 320-322, [get] 325-327, [get_ex] 330-332, [set_mut] 335-337 *)
(* gauge.rs:320-337 *)
Definition af_set (x : f64) (cell : N) : N := to_bits x.
(* gauge.rs:320-337 *)
Definition af_get (cell : N) : f64 := from_bits cell.
(* gauge.rs:320-337 *)
Definition af_get_ex (cell : N) : f64 := from_bits cell.
(* gauge.rs:320-337 *)
Definition af_set_mut (x : f64) (cell : N) : N := to_bits x.

(** [inc_by] 340-354 by a thread that is alone: load, add, compare-exchange;
    [fails] compare-exchanges fail spuriously first.  [None]: still looping. (gauge.rs:340-354) *)
Fixpoint af_inc_by_loop (fuel fails : nat) (delta : f64) (cell : N) : option N :=
  match fuel with
  | O => None
  | S fuel' =>
    let current := cell in
    let new := f_add (from_bits current) delta in
    match fails with
    | O => if cell =? current then Some (to_bits new) else af_inc_by_loop fuel' O delta cell
    | S fails' => af_inc_by_loop fuel' fails' delta cell
    end
  end.

(** The cell after an undisturbed [inc_by]. *)
(* gauge.rs:340-354 *)
Definition af_inc_by (delta : f64) (cell : N) : N := to_bits (f_add (from_bits cell) delta).

(** [dec_by] 357-359 *)
(* gauge.rs:357-359 *)
Definition af_dec_by (delta : f64) (cell : N) : N := af_inc_by (f_neg delta) cell.

(** 1.0 *)
(* gauge.rs:214 and 224 *)
Definition f_one : f64 := 4607182418800017408.

(** The operations of [FloatGaugeLockGuard]: gauge.rs:211-236, and of
    [FloatGaugeMut]: 238-267. *)
Inductive fgauge_op := FInc | FIncBy (x : f64) | FDec | FDecBy (x : f64) | FSet (x : f64).

Definition fgauge_shared (op : fgauge_op) (g : N) : N :=
  match op with
  | FInc => af_inc_by f_one g
  | FIncBy x => af_inc_by x g
  | FDec => af_dec_by f_one g
  | FDecBy x => af_dec_by x g
  | FSet x => af_set x g
  end.

(* gauge.rs:238-267 *)
Definition fgauge_mut (op : fgauge_op) (g : N) : N :=
  match op with
  | FInc => af_set_mut (f_add (af_get_ex g) f_one) g
  | FIncBy x => af_set_mut (f_add (af_get_ex g) x) g
  | FDec => af_set_mut (f_sub (af_get_ex g) f_one) g
  | FDecBy x => af_set_mut (f_sub (af_get_ex g) x) g
  | FSet x => af_set_mut x g
  end.

(* ------------------------------------------------------------------ *)
(** ** Thresholds: histogram.rs:92-153 *)

(** The loop of [with_buckets] (140-145) from index [i], for [n] iterations:
    an index out of range panics. *)
Fixpoint with_buckets_loop (n i : nat) (buckets : list f64) : outcome unit :=
  match n with
  | O => Done tt
  | S n' =>
    match nth_error buckets i, nth_error buckets (S i) with
    | Some a, Some b => if f_lt a b then with_buckets_loop n' (S i) buckets else Panic
    | _, _ => Panic
    end
  end.

(** [with_buckets] 139-147.  For N = 0 the bound [N - 1] overflows: a debug
    build panics there; a release build goes on with [usize::MAX] iterations, of
    which the first one (all that is needed here) panics. (histogram.rs:139-147) *)
Definition with_buckets (bd : build) (buckets : list f64) : outcome (list f64) :=
  let! _ :=
    match length buckets, bd with
    | O, Debug => Panic
    | O, Release => with_buckets_loop 1 0 buckets
    | S n, _ => with_buckets_loop n 0 buckets
    end in
  Done buckets.

(** [linear_buckets] 124-133; [i as f64] is exact or rounded to nearest. *)
(* histogram.rs:124-133 *)
Definition linear_buckets (n : nat) (start width : f64) : outcome (list f64) :=
  if f_gt width 0 then
    Done (map (fun i => f_add start (f_mul width (f_of_Z (Z.of_nat i)))) (seq 0 n))
  else Panic.

(** [i as i32] of a usize. *)
(* histogram.rs:103-117 *)
Definition to_i32 (x : Z) : Z :=
  let y := (x mod 2 ^ 32)%Z in if (y <? 2 ^ 31)%Z then y else (y - 2 ^ 32)%Z.

(** [exponential_buckets] 103-117.  [powi] is [f64::powi], whose rounding Rust
    leaves open. (histogram.rs:103-117) *)
Definition exponential_buckets (powi : f64 -> Z -> f64) (n : nat) (start factor : f64) : outcome (list f64) :=
  if f_gt start 0 then
    if f_gt factor f_one then
      Done (map (fun i => f_mul start (powi factor (to_i32 (Z.of_nat i)))) (seq 0 n))
    else Panic
  else Panic.

(* ------------------------------------------------------------------ *)
(** ** [<[T]>::partition_point] *)

(** core::slice: partition_point is a binary search whose comparison answers
    Less where the predicate holds and Greater elsewhere.  The search loop was
    rewritten in Rust 1.82, so both are given; they differ on slices that are
    not partitioned. (std, used in histogram.rs:158 and 178) *)
Inductive std_version := StdBefore182 | StdFrom182.

(* std, used in histogram.rs:158 and 178 *)
Definition at_index (pred : f64 -> bool) (l : list f64) (i : nat) : bool :=
  match nth_error l i with Some x => pred x | None => false end.

(** Rust 1.52 to 1.81: shrink [left, right), [size] being its length. *)
(* std, used in histogram.rs:158 and 178 *)
Fixpoint search_old (fuel : nat) (pred : f64 -> bool) (l : list f64) (size left right : nat) : nat :=
  match fuel with
  | O => left
  | S fuel' =>
    if (left <? right)%nat then
      let mid := (left + size / 2)%nat in
      if at_index pred l mid
      then search_old fuel' pred l (right - (mid + 1)) (mid + 1) right
      else search_old fuel' pred l (mid - left) left mid
    else left
  end.

(** Rust 1.82 on: halve [size] down to one, then look at [base]. *)
(* std, used in histogram.rs:158 and 178 *)
Fixpoint search_new (fuel : nat) (pred : f64 -> bool) (l : list f64) (size base : nat) : nat :=
  match fuel with
  | O => base
  | S fuel' =>
    if (1 <? size)%nat then
      let half := (size / 2)%nat in
      let mid := (base + half)%nat in
      search_new fuel' pred l (size - half) (if at_index pred l mid then mid else base)
    else base
  end.

(* std, used in histogram.rs:158 and 178 *)
Definition partition_point (v : std_version) (pred : f64 -> bool) (l : list f64) : nat :=
  match v with
  | StdBefore182 => search_old (S (length l)) pred l (length l) 0 (length l)
  | StdFrom182 =>
    match l with
    | [] => 0%nat
    | _ =>
      let base := search_new (length l) pred l (length l) 0 in
      (base + (if at_index pred l base then 1 else 0))%nat
    end
  end.

(* ------------------------------------------------------------------ *)
(** ** Histograms *)

(** [HistogramStateInner] histogram.rs:18-25; N is the length of [h_buckets]. *)
Record hist := { h_buckets : list N; h_inf : N; h_sum : N }.

(** [Default] 74-86 *)
Definition hist_new (n : nat) : hist := {| h_buckets := repeat 0 n; h_inf := 0; h_sum := af_zero |}.

(** Apply [f] to the element at [i]. *)
Fixpoint update_nth {A} (i : nat) (f : A -> A) (l : list A) : list A :=
  match l, i with
  | [], _ => []
  | x :: t, O => f x :: t
  | x :: t, S i' => x :: update_nth i' f t
  end.

(** [observe] 29-37 *)
(* histogram.rs:29-37 *)
Definition hist_observe (bucket : nat) (x : f64) (h : hist) : outcome hist :=
  if (bucket <=? length (h_buckets h))%nat then
    if (bucket <? length (h_buckets h))%nat then
      Done {| h_buckets := update_nth bucket (fun c => wrap64 (c + 1)) (h_buckets h);
              h_inf := h_inf h; h_sum := af_inc_by x (h_sum h) |}
    else
      Done {| h_buckets := h_buckets h; h_inf := wrap64 (h_inf h + 1); h_sum := af_inc_by x (h_sum h) |}
  else Panic.

(** [observe_mut] 40-49 *)
(* histogram.rs:40-49 *)
Definition hist_observe_mut (bd : build) (bucket : nat) (x : f64) (h : hist) : outcome hist :=
  if (bucket <=? length (h_buckets h))%nat then
    match nth_error (h_buckets h) bucket with
    | Some c =>
      let! c' := u_add bd c 1 in
      Done {| h_buckets := update_nth bucket (fun _ => c') (h_buckets h); h_inf := h_inf h;
              h_sum := af_set_mut (f_add (af_get_ex (h_sum h)) x) (h_sum h) |}
    | None =>
      let! c' := u_add bd (h_inf h) 1 in
      Done {| h_buckets := h_buckets h; h_inf := c';
              h_sum := af_set_mut (f_add (af_get_ex (h_sum h)) x) (h_sum h) |}
    end
  else Panic.

(** [sample] 51-59, as the metric an encoder is given; [ts] is the metadata. *)
(* histogram.rs:51-59 *)
Definition hist_sample (ts : list f64) (h : hist) : metric :=
  MHistogram ts (h_buckets h) (h_inf h) (af_get_ex (h_sum h)).

(** [HistogramLockGuard::observe] 157-160, and [HistogramMut::observe] 177-180,
    which reaches the state through [get_mut] but calls the same [observe].
    (histogram.rs:157-160 and 177-180) *)
Definition guard_observe (v : std_version) (ts : list f64) (x : f64) (h : hist) : outcome hist :=
  hist_observe (partition_point v (fun le => f_gt x le) ts) x h.
(* histogram.rs:157-160 and 177-180 *)
Definition mut_observe (v : std_version) (ts : list f64) (x : f64) (h : hist) : outcome hist :=
  hist_observe (partition_point v (fun le => f_gt x le) ts) x h.

(** A sequence of [observe] calls (157-160) on one histogram. *)
(* histogram.rs:157-160 and 177-180 *)
Fixpoint observe_all (v : std_version) (ts : list f64) (xs : list f64) (h : hist) : outcome hist :=
  match xs with
  | [] => Done h
  | x :: rest => let! h' := guard_observe v ts x h in observe_all v ts rest h'
  end.

(* ------------------------------------------------------------------ *)
(** ** Durations and timers *)

(** [std::time::Duration]: whole seconds and nanoseconds below 10^9. *)
(* std, used in histogram.rs:163-172 *)
Record duration := { d_secs : N; d_nanos : N }.

(** 10^9 *)
(* std, used in histogram.rs:163-172 *)
Definition nanos_per_sec : N := 1000000000.

(** [Duration::as_secs_f64]: [secs as f64 + nanos as f64 / 1e9]. *)
(* std, used in histogram.rs:163-172 *)
Definition as_secs_f64 (d : duration) : f64 :=
  f_add (f_of_Z (Z.of_N (d_secs d)))
        (f_div (f_of_Z (Z.of_N (d_nanos d))) (f_of_Z (Z.of_N nanos_per_sec))).

(** [HistogramLockGuard::observe_duration] 163-165, [HistogramMut] 183-185 *)
(* histogram.rs:163-165 *)
Definition guard_observe_duration (v : std_version) (ts : list f64) (d : duration) (h : hist) : outcome hist :=
  guard_observe v ts (as_secs_f64 d) h.

(** An [Instant] is the number of nanoseconds on the monotonic clock;
    [Instant::elapsed] saturates at zero. (std, used in histogram.rs:163-172) *)
Definition instant := N.
(* std, used in histogram.rs:163-172 *)
Definition elapsed (start now : instant) : duration :=
  {| d_secs := (now - start) / nanos_per_sec; d_nanos := (now - start) mod nanos_per_sec |}.

(** [observe_duration_since] 168-172, 188-192, which also returns the duration;
    [now] is the clock reading. (histogram.rs:168-172) *)
Definition guard_observe_since (v : std_version) (ts : list f64) (start now : instant) (h : hist)
  : outcome (hist * duration) :=
  let d := elapsed start now in
  let! h' := guard_observe_duration v ts d h in Done (h', d).

(** Timers, for an arbitrary way [observe_since] of recording the time since an
    instant on a target: the histogram of a [HistogramTimer] (274-298) or the
    label of a [HistogramVecTimer] (246-271). *)
Section Timers.
  Variables T W : Type.
  Variable observe_since : T -> instant -> instant -> W -> outcome (W * duration).

  (** [vec] and, for a [HistogramVecTimer], [id]; [start]. *)
  (* histogram.rs:246-298 *)
  Record timer := { t_vec : option T; t_start : instant }.

  (** [Histogram::start_timer] 202-207, [HistogramVec::start_timer] 220-226. *)
  (* histogram.rs:202-207 and 220-226 *)
  Definition timer_start (target : T) (now : instant) : timer :=
    {| t_vec := Some target; t_start := now |}.

  (** [Drop::drop] 265-271, 292-298 *)
  (* histogram.rs:246-298 *)
  Definition timer_drop (t : timer) (now : instant) (w : W) : outcome W :=
    match t_vec t with
    | Some target => let! wd := observe_since target (t_start t) now w in Done (fst wd)
    | None => Done w
    end.

  (** [forget] 254-256, 281-283: the value is dropped at the end of the call. *)
  (* histogram.rs:246-298 *)
  Definition timer_forget (t : timer) (now : instant) (w : W) : outcome W :=
    timer_drop {| t_vec := None; t_start := t_start t |} now w.

  (** [observe] 259-262, 286-289: [take().unwrap()], then the value is dropped;
      [now'] is the clock at the drop. (histogram.rs:246-298) *)
  Definition timer_observe (t : timer) (now now' : instant) (w : W) : outcome (W * duration) :=
    match t_vec t with
    | None => Panic
    | Some target =>
      let! wd := observe_since target (t_start t) now w in
      let! w' := timer_drop {| t_vec := None; t_start := t_start t |} now' (fst wd) in
      Done (w', snd wd)
    end.

  (** Lifecycle calls on a growing list of timers.  The three ending calls
      consume the timer, so Rust accepts at most one of them per timer; a call
      on a consumed timer does not exist and is ignored here. (histogram.rs:246-298) *)
  Inductive timer_op :=
  | TStart (target : T) (now : instant)
  | TForget (i : nat) (now : instant)
  | TObserve (i : nat) (now now' : instant)
  | TDrop (i : nat) (now : instant).

  (* histogram.rs:246-298 *)
  Definition consume (i : nat) (ts : list (option timer)) : list (option timer) :=
    update_nth i (fun _ => None) ts.

  (* histogram.rs:246-298 *)
  Definition timer_step (op : timer_op) (s : list (option timer) * W) : outcome (list (option timer) * W) :=
    let (ts, w) := s in
    match op with
    | TStart target now => Done (ts ++ [Some (timer_start target now)], w)
    | TForget i now =>
      match nth_error ts i with
      | Some (Some t) => let! w' := timer_forget t now w in Done (consume i ts, w')
      | _ => Done s
      end
    | TObserve i now now' =>
      match nth_error ts i with
      | Some (Some t) => let! wd := timer_observe t now now' w in Done (consume i ts, fst wd)
      | _ => Done s
      end
    | TDrop i now =>
      match nth_error ts i with
      | Some (Some t) => let! w' := timer_drop t now w in Done (consume i ts, w')
      | _ => Done s
      end
    end.

  (* histogram.rs:246-298 *)
  Fixpoint timer_run (ops : list timer_op) (s : list (option timer) * W) : outcome (list (option timer) * W) :=
    match ops with
    | [] => Done s
    | op :: rest => let! s' := timer_step op s in timer_run rest s'
    end.
End Timers.
