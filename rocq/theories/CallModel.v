(** The methods of the metric vecs that take a label group and change its
    metric: core/src/metric/counter.rs:55-75, gauge.rs:117-142 and 269-294,
    histogram.rs:212-242. *)
From Coq Require Import List NArith ZArith Bool.
From Verif Require Import Base LabelModel VecModel VecSpec FloatModel MetricModel.
Import ListNotations.
Local Open Scope N_scope.

Section Calls.
  Context {L : lgset} {M : Type}.
  Variable W : world L M.
  Notation vec := (metric_vec L M).

  (** [self.get_metric(self.with_labels(label)).f()]: every method of the vecs
      has this shape, with [get_metric_mut] for those ending in [_mut].  What the
      guard's method does to the metric is [f], which may panic.
      (counter.rs:55-75, gauge.rs:117-142 and 269-294, histogram.rs:212-242) *)
  Definition vec_method (exclusive : bool) (g : lg_group L) (f : M -> outcome M) (v : vec) : outcome vec :=
    let! p := vec_with_labels (w_bd W) L M (w_hash W) v g in
    let (v1, id) := (p : vec * label_id L) in
    let step := fun m => match f m with Done m' => (m', 0) | Panic => (m, 1) end in
    let! q :=
      if exclusive then vec_get_metric_mut (w_bd W) L M (w_default W) (w_hash W) (w_visits W) (w_grows W) v1 id step
      else vec_get_metric (w_bd W) L M (w_default W) (w_hash W) (w_visits W) (w_grows W) v1 id step in
    let (v2, r) := (q : vec * N) in
    if r =? 0 then Done v2 else Panic.

  (** [self.remove_metric(self.with_labels(label))] (metric.rs:332-335, 373-378),
      as a user writes it. *)
  Definition vec_delete (g : lg_group L) (v : vec) : outcome vec :=
    let! p := vec_with_labels (w_bd W) L M (w_hash W) v g in
    let (v1, id) := (p : vec * label_id L) in
    let! q := vec_remove_metric (w_bd W) L M (w_visits W) v1 id in
    Done (fst (q : vec * option M)).

  (** One such call, and a sequence of them. *)
  Inductive call :=
  | Update (exclusive : bool) (g : lg_group L) (f : M -> outcome M)
  | Delete (g : lg_group L).

  (* counter.rs:55-75, gauge.rs:117-142 and 269-294, histogram.rs:212-242 *)
  Definition run_call (c : call) (v : vec) : outcome vec :=
    match c with
    | Update ex g f => vec_method ex g f v
    | Delete g => vec_delete g v
    end.
  (* counter.rs:55-75, gauge.rs:117-142 and 269-294, histogram.rs:212-242 *)
  Fixpoint run_calls (calls : list call) (v : vec) : outcome vec :=
    match calls with
    | [] => Done v
    | c :: rest => let! v' := run_call c v in run_calls rest v'
    end.
End Calls.
Arguments call : clear implicits.

(** [CounterVec::inc] counter.rs:57-59, [inc_by] 62-64, [inc_mut] 67-69,
    [inc_by_mut] 72-74 *)
Definition counter_vec_inc {L} (g : lg_group L) : call L N := Update false g (fun c => Done (counter_inc c)).
Definition counter_vec_inc_by {L} (g : lg_group L) (y : N) : call L N := Update false g (fun c => Done (counter_inc_by y c)).
Definition counter_vec_inc_mut {L} (bd : build) (g : lg_group L) : call L N := Update true g (counter_inc_mut bd).
Definition counter_vec_inc_by_mut {L} (bd : build) (g : lg_group L) (y : N) : call L N := Update true g (counter_inc_by_mut bd y).

(** [GaugeVec::inc], [inc_by], [dec], [dec_by], [set]: gauge.rs:119-141 *)
Definition gauge_vec_call {L} (g : lg_group L) (op : gauge_op) : call L Z := Update false g (fun z => Done (gauge_shared op z)).

(** The same of [FloatGaugeVec]: gauge.rs:271-293 *)
Definition float_gauge_vec_call {L} (g : lg_group L) (op : fgauge_op) : call L N := Update false g (fun x => Done (fgauge_shared op x)).

(** [HistogramVec::observe] histogram.rs:214-216, [observe_duration] 229-231,
    [observe_duration_since] 234-242; the thresholds are the vec's metadata. *)
Definition histogram_vec_observe {L} (v : std_version) (ts : list f64) (g : lg_group L) (y : f64) : call L hist :=
  Update false g (guard_observe v ts y).
Definition histogram_vec_observe_duration {L} (v : std_version) (ts : list f64) (g : lg_group L) (d : duration) : call L hist :=
  histogram_vec_observe v ts g (as_secs_f64 d).
Definition histogram_vec_observe_since {L} (v : std_version) (ts : list f64) (g : lg_group L) (start now : instant) : call L hist :=
  histogram_vec_observe_duration v ts g (elapsed start now).
