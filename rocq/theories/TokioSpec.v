(** Which figures of a tokio runtime are exported, under which names and labels. *)
From Coq Require Import String List NArith ZArith Bool.
From Verif Require Import Base Writer NameModel LabelModel FloatModel TextModel EncoderModel MetricModel CollectorModel CollectorSpec.
Import ListNotations.
Local Open Scope N_scope.

Section Figures.
  (** The case conversion of derived labels; the feature net; a runtime and its
      name, if it was given one. *)
  Variable heck : rename_all -> bytes -> bytes.
  Variable net : bool.
  Variables (rt : runtime) (name : option bytes).

  Definition with_runtime (ls : labels) : labels :=
    match name with Some n => (str "runtime", LStr n) :: ls | None => ls end.
  Definition of_worker (w : N) (ls : labels) : labels :=
    with_runtime ((str "worker", LInt (Z.of_N w)) :: ls).

  (** Family, suffix, labels and value of a sample. *)
  Inductive runtime_figure : bytes -> option suffix -> labels -> metric -> Prop :=
  | RF_workers : runtime_figure (str "threads") None
      (with_runtime [(str "kind", LStr (heck Snake (str "Worker")))]) (MGauge (Z.of_N (rt_num_workers rt)))
  | RF_blocking : runtime_figure (str "threads") None
      (with_runtime [(str "kind", LStr (heck Snake (str "Blocking")))])
      (MGauge (Z.max 0 (Z.of_N (rt_num_blocking_threads rt) - Z.of_N (rt_num_idle_blocking_threads rt))))
  | RF_idle : runtime_figure (str "threads") None
      (with_runtime [(str "kind", LStr (heck Snake (str "Idle")))]) (MGauge (Z.of_N (rt_num_idle_blocking_threads rt)))
  | RF_active : runtime_figure (str "active_tasks") None (with_runtime []) (MGauge (Z.of_N (rt_active_tasks rt)))
  | RF_queue_blocking : runtime_figure (str "queued_tasks") None
      (with_runtime [(str "kind", LStr (str "blocking"))]) (MGauge (Z.of_N (rt_blocking_queue_depth rt)))
  | RF_queue_injection : runtime_figure (str "queued_tasks") None
      (with_runtime [(str "kind", LStr (str "injection"))]) (MGauge (Z.of_N (rt_injection_queue_depth rt)))
  | RF_queue_worker : forall w, w < rt_num_workers rt -> runtime_figure (str "queued_tasks") None
      (with_runtime [(str "kind", LStr (itoa_nat w))]) (MGauge (Z.of_N (rt_local_queue_depth rt w)))
  | RF_scheduled : forall w, w < rt_num_workers rt -> runtime_figure (str "scheduled_tasks_total") None
      (of_worker w [(str "overflow", LStr (str "false"))]) (MCounter (rt_local_schedule_count rt w))
  | RF_overflow : forall w, w < rt_num_workers rt -> runtime_figure (str "scheduled_tasks_total") None
      (of_worker w [(str "overflow", LStr (str "true"))]) (MCounter (rt_overflow_count rt w))
  | RF_remote : runtime_figure (str "scheduled_tasks_total") None
      (with_runtime [(str "worker", LStr (str "remote")); (str "overflow", LStr (str "true"))])
      (MCounter (rt_remote_schedule_count rt))
  | RF_yields : runtime_figure (str "budget_forced_yield_count") None (with_runtime []) (MCounter (rt_forced_yield_count rt))
  | RF_mean : forall w, w < rt_num_workers rt -> runtime_figure (str "worker_mean_poll_time_seconds") None
      (of_worker w []) (MFloatGauge (as_secs_f64 (rt_mean_poll_time rt w)))
  | RF_noop : forall w, w < rt_num_workers rt -> runtime_figure (str "worker_noop_count") None
      (of_worker w []) (MCounter (rt_noop_count rt w))
  | RF_park : forall w, w < rt_num_workers rt -> runtime_figure (str "worker_park_count") None
      (of_worker w []) (MCounter (rt_park_count rt w))
  | RF_steal : forall w, w < rt_num_workers rt -> runtime_figure (str "worker_steal_count") None
      (of_worker w []) (MCounter (rt_steal_count rt w))
  | RF_steals : forall w, w < rt_num_workers rt -> runtime_figure (str "worker_steal_operations_count") None
      (of_worker w []) (MCounter (rt_steal_operations rt w))
  | RF_bucket : forall w k le, w < rt_num_workers rt -> rt_histogram_enabled rt = true -> k < rt_num_buckets rt ->
      bucket_bound rt k le -> runtime_figure (str "worker_poll_time_seconds") (Some Bucket)
        (of_worker w [(str "le", LFloat le)]) (MCounter (polls rt w (S (N.to_nat k))))
  | RF_polls : forall w, w < rt_num_workers rt -> runtime_figure (str "worker_poll_time_seconds") (Some Count)
      (of_worker w []) (MCounter (rt_poll_count rt w))
  | RF_busy : forall w, w < rt_num_workers rt -> runtime_figure (str "worker_poll_time_seconds") (Some Sum)
      (of_worker w []) (MFloatGauge (as_secs_f64 (rt_busy_duration rt w)))
  | RF_registered : net = true -> runtime_figure (str "registered_fds_total") None
      (with_runtime []) (MCounter (rt_fd_registered rt))
  | RF_deregistered : net = true -> runtime_figure (str "deregistered_fds_total") None
      (with_runtime []) (MCounter (rt_fd_deregistered rt))
  | RF_ready : net = true -> runtime_figure (str "io_ready_events_total") None
      (with_runtime []) (MCounter (rt_io_ready rt)).
End Figures.

(** The samples of the families are exactly these. *)
Definition samples_are (fs : list cfamily) (P : bytes -> option suffix -> labels -> metric -> Prop) : Prop :=
  forall n sf ls m,
    (exists f s, In f fs /\ In s (cf_samples f) /\ cf_name f = n /\ sm_suffix s = sf /\ sm_labels s = ls /\ sm_metric s = m)
    <-> P n sf ls m.

(** The families, in the order of export, and what they are said to be. *)
Definition runtime_families (net : bool) : list (bytes * bytes) :=
  [(str "threads", str "number of threads used by the runtime");
   (str "active_tasks", str "number of active tasks spawned in the runtime");
   (str "queued_tasks", str "number of tasks currently in a queue");
   (str "scheduled_tasks_total", str "total number of tasks scheduled into the runtime");
   (str "budget_forced_yield_count", str "number of tasks forced to yield after exhausting their budget");
   (str "worker_mean_poll_time_seconds", str "estimated weighted moving average of the poll time for this worker");
   (str "worker_noop_count", str "number of times the given worker thread woke up with no work");
   (str "worker_park_count", str "number of times the given worker thread has parked");
   (str "worker_steal_count", str "number of tasks the given worker thread has stolen");
   (str "worker_steal_operations_count", str "number of times the given worker thread has attempted to steal tasks");
   (str "worker_poll_time_seconds", str "time this runtime thread has spent polling tasks")] ++
  if net then
  [(str "registered_fds_total", str "total number of file descriptors that have been registered in the runtime");
   (str "deregistered_fds_total", str "total number of file descriptors that have been deregistered from the runtime");
   (str "io_ready_events_total", str "total number of ready events the runtime's IO driver has processed")]
  else [].
Definition families_are (fs : list cfamily) (l : list (bytes * bytes)) : Prop :=
  map (fun f => (cf_name f, cf_help f)) fs = l.

(** ** Answers of the system that are out of range *)

(** Numbers that fit their types. *)
Definition fits_u64 (n : N) : Prop := n < 2 ^ 64.
Definition fits_i64 (z : Z) : Prop := (- 2 ^ 63 <= z < 2 ^ 63)%Z.
Definition os_typed (o : os) : Prop :=
  fits_i64 (os_clk_tck o) /\ fits_i64 (os_pagesize o) /\
  (forall boot, os_boot_time o = Some boot -> fits_u64 boot) /\
  forall pid p st, os_process o pid = Some p -> p_stat p = Some st ->
    fits_u64 (ps_rss st) /\ fits_u64 (ps_utime st) /\ fits_u64 (ps_stime st) /\ fits_u64 (ps_starttime st).

(** The number of 64 bits read as signed. *)
Definition signed (n : N) : Z := if (n <? 2 ^ 63) then Z.of_N n else (Z.of_N n - 2 ^ 64)%Z.

(** Dividing is not possible. *)
Definition no_quotient (a b : Z) : Prop := b = 0%Z \/ (a = - 2 ^ 63 /\ b = -1)%Z.

(** Collecting must panic: in a debug build on overflow, in both where the number
    of ticks cannot be divided. *)
Definition must_panic (bd : build) (o : os) (p : proc) : Prop :=
  exists st, p_stat p = Some st /\
    ((bd = Debug /\ ~ fits_i64 (signed (ps_rss st) * os_pagesize o)) \/
     (bd = Debug /\ ~ fits_u64 (ps_utime st + ps_stime st)) \/
     no_quotient (signed ((ps_utime st + ps_stime st) mod 2 ^ 64)) (os_clk_tck o)).

(** Making a collector must panic: the start time of the caller cannot be computed. *)
Definition new_panics (bd : build) (o : os) : Prop :=
  exists boot p st, os_boot_time o = Some boot /\ os_process o (os_self o) = Some p /\ p_stat p = Some st /\
    (no_quotient (signed (ps_starttime st)) (os_clk_tck o) \/
     (bd = Debug /\ ~ fits_i64 (Z.quot (signed (ps_starttime st)) (os_clk_tck o) + signed boot))).

(** An encoder that accepts everything. *)
Definition accepting {S} (e : encoder S) : Prop :=
  (forall n h s, snd (e_help e n h s) = ROk) /\ (forall m ls n s, snd (e_collect e m ls n s) = ROk).
