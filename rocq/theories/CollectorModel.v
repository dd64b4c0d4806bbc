(** The bundled collectors: process/src/lib.rs and tokio/src/lib.rs.  What they
    read from the operating system and from tokio is given by records. *)
From Coq Require Import String List NArith ZArith Bool.
From Verif Require Import Base Writer NameModel LabelModel FloatModel MetricModel EncoderModel TextModel.
Import ListNotations.
Local Open Scope N_scope.

(** Rust's [a + b], [a * b], [a / b] on i64: overflow panics in debug builds and
    wraps in release builds; division by zero and [i64::MIN / -1] always panic. *)
Definition i64_fits (x : Z) : bool := ((- 2 ^ 63 <=? x) && (x <? 2 ^ 63))%Z.
Definition i_add (bd : build) (a b : Z) : outcome Z :=
  match bd with
  | Debug => if i64_fits (a + b) then Done (a + b)%Z else Panic
  | Release => Done (to_i64 (a + b))
  end.
(* process/src/lib.rs:62, 110 and 119 *)
Definition i_mul (bd : build) (a b : Z) : outcome Z :=
  match bd with
  | Debug => if i64_fits (a * b) then Done (a * b)%Z else Panic
  | Release => Done (to_i64 (a * b))
  end.
(* process/src/lib.rs:62, 110 and 119 *)
Definition i_div (a b : Z) : outcome Z :=
  if (b =? 0)%Z then Panic else if i64_fits (Z.quot a b) then Done (Z.quot a b) else Panic.

(** counter.rs:104-117 [write_counter], gauge.rs:149-162 [write_gauge], 362-375
    [write_float_gauge]: a fresh state with the value is collected. *)
Definition write_counter {S} (e : encoder S) (n : mname) (ls : labels) (value : N) : io S :=
  e_collect e (MCounter value) ls n.
Definition write_gauge {S} (e : encoder S) (n : mname) (ls : labels) (value : Z) : io S :=
  e_collect e (MGauge value) ls n.
Definition write_float_gauge {S} (e : encoder S) (n : mname) (ls : labels) (value : f64) : io S :=
  e_collect e (MFloatGauge value) ls n.

(** [write_gauge(.., x)?] where computing [x] may panic *)
Definition with_value {A S} (x : outcome A) (k : A -> io S) : io S := fun s =>
  match x with Done v => k v s | Panic => (s, RPanic) end.

(* ------------------------------------------------------------------ *)
(** ** process/src/lib.rs *)

(** The fields of [procfs::process::Stat] in use: all u64 but [num_threads : i64]. *)
Record proc_stat := {
  ps_starttime : N; ps_vsize : N; ps_rss : N; ps_utime : N; ps_stime : N; ps_num_threads : Z }.

(** A [procfs::process::Process] and the answers to [fd_count()], [limits()]
    (of which [max_open_files.soft_limit]: [LimitValue::Value] or [Unlimited]) and
    [stat()]; [None] for [Err]. *)
Inductive limit_value := Unlimited | LimitValue (v : N).
Record proc := {
  p_fd_count : option N; p_soft_limit : option limit_value; p_stat : option proc_stat }.

(** The system at some moment: the pid of the caller, [procfs::boot_time_secs()],
    the processes ([Process::new(pid)] fails for the others; [Process::myself()]
    is the process of the caller), and the [sysconf] values [clk_tck()] and
    [pagesize()] (lib.rs:142-150), which are read once and kept. *)
Record os := {
  os_self : Z; os_boot_time : option N; os_process : Z -> option proc; os_clk_tck : Z; os_pagesize : Z }.

(** lib.rs:49-52 *)
Record process_collector := { pc_pid : Z; pc_start_time : option Z }.

(** lib.rs:56-67 [ProcessCollector::new]; the start time is that of the calling
    process, whatever [pid] is. *)
Definition process_new (bd : build) (o : os) (pid : Z) : outcome process_collector :=
  match os_boot_time o with
  | None => Done {| pc_pid := pid; pc_start_time := None |}
  | Some boot =>
    match os_process o (os_self o) with
    | Some {| p_stat := Some stat |} =>
      let! secs := i_div (u64_as_i64 (ps_starttime stat)) (os_clk_tck o) in
      let! start := i_add bd secs (u64_as_i64 boot) in
      Done {| pc_pid := pid; pc_start_time := Some start |}
    | _ => Done {| pc_pid := pid; pc_start_time := None |}
    end
  end.

(** lib.rs:70-73 [for_self] *)
Definition process_for_self (bd : build) (o : os) : outcome process_collector :=
  process_new bd o (os_self o).

(** lib.rs:90-92 and the like: help, then one gauge without labels *)
Definition write_figure {S} (e : encoder S) (name help : bytes) (value : outcome Z) : io S :=
  e_help e (NBase name) help ;;?
  with_value value (fun v => write_gauge e (NBase name) [] v).

(** lib.rs:80-139 [collect_group_into] on Linux (elsewhere it does nothing) *)
Definition process_collect {S} (bd : build) (o : os) (c : process_collector) (e : encoder S) : io S :=
  match os_process o (pc_pid c) with
  | None => ret_ok
  | Some p =>
    match p_fd_count p with
    | Some fds => write_figure e (str "open_fds") (str "Number of open file descriptors.") (Done (u64_as_i64 fds))
    | None => ret_ok
    end ;;?
    match p_soft_limit p with
    | Some (LimitValue max) =>
      write_figure e (str "max_fds") (str "Maximum number of open file descriptors.") (Done (u64_as_i64 max))
    | _ => ret_ok
    end ;;?
    match p_stat p with
    | Some st =>
      write_figure e (str "virtual_memory_bytes") (str "Virtual memory size in bytes.") (Done (u64_as_i64 (ps_vsize st))) ;;?
      write_figure e (str "resident_memory_bytes") (str "Resident memory size in bytes.")
        (i_mul bd (u64_as_i64 (ps_rss st)) (os_pagesize o)) ;;?
      write_figure e (str "cpu_seconds_total") (str "Total user and system CPU time spent in seconds.")
        (let! ticks := u_add bd (ps_utime st) (ps_stime st) in i_div (u64_as_i64 ticks) (os_clk_tck o)) ;;?
      write_figure e (str "threads") (str "Number of OS threads in the process.") (Done (ps_num_threads st))
    | None => ret_ok
    end ;;?
    match pc_start_time c with
    | Some start =>
      write_figure e (str "start_time_seconds") (str "Start time of the process since unix epoch in seconds.") (Done start)
    | None => ret_ok
    end
  end.

(* ------------------------------------------------------------------ *)
(** ** tokio/src/lib.rs *)

(** The answers of [tokio::runtime::RuntimeMetrics] during one collection.  The
    number of workers, whether there is a poll time histogram and its buckets are
    fixed for a runtime; every other figure is read once per collection, so that
    the record gives the value of that reading.  Numbers are u64 or usize. *)
Record runtime := {
  rt_num_workers : N;
  rt_num_blocking_threads : N;
  rt_num_idle_blocking_threads : N;
  rt_active_tasks : N;
  rt_blocking_queue_depth : N;
  rt_injection_queue_depth : N;
  rt_local_queue_depth : N -> N;
  rt_local_schedule_count : N -> N;
  rt_overflow_count : N -> N;
  rt_remote_schedule_count : N;
  rt_forced_yield_count : N;
  rt_mean_poll_time : N -> duration;
  rt_noop_count : N -> N;
  rt_park_count : N -> N;
  rt_steal_count : N -> N;
  rt_steal_operations : N -> N;
  rt_histogram_enabled : bool;
  rt_num_buckets : N;
  rt_bucket_end : N -> duration;
  rt_bucket_count : N -> N -> N;
  rt_poll_count : N -> N;
  rt_busy_duration : N -> duration;
  rt_fd_registered : N;
  rt_fd_deregistered : N;
  rt_io_ready : N }.

(** lib.rs:99-102 [RuntimeCollector], 410-412 [RuntimeName]; 106-111 [new],
    125-132 [with_name].  A [NamedRuntimesCollector] (45-79) is a list to which
    [add] appends. *)
Record runtime_collector := { rc_runtime : runtime; rc_name : option bytes }.
Definition runtime_new (rt : runtime) : runtime_collector := {| rc_runtime := rt; rc_name := None |}.
Definition with_name (c : runtime_collector) (name : bytes) : runtime_collector :=
  {| rc_runtime := rc_runtime c; rc_name := Some name |}.
Definition named_add (l : list runtime_collector) (rt : runtime) (name : bytes) : list runtime_collector :=
  l ++ [with_name (runtime_new rt) name].

(** [Duration::from_nanos(u64::MAX)] and [==] on [Duration] *)
Definition duration_max_nanos : duration :=
  {| d_secs := (W64 - 1) / nanos_per_sec; d_nanos := (W64 - 1) mod nanos_per_sec |}.
(* tokio/src/lib.rs:135-143 *)
Definition duration_eqb (a b : duration) : bool := (d_secs a =? d_secs b) && (d_nanos a =? d_nanos b).

(** lib.rs:135-143 [histogram_le] *)
Definition histogram_le (rt : runtime) (bucket : N) : f64 :=
  if duration_eqb (rt_bucket_end rt bucket) duration_max_nanos then f_infinity
  else as_secs_f64 (rt_bucket_end rt bucket).

(** [for i in 0..n] *)
Definition range (n : N) : list N := map N.of_nat (seq 0 (N.to_nat n)).

(** [for x in l { f(x)?; }] *)
Fixpoint for_each {A S} (l : list A) (f : A -> io S) : io S :=
  match l with [] => ret_ok | x :: rest => f x ;;? for_each rest f end.

(** lib.rs:414-421: no label without a name *)
Definition runtime_labels (c : runtime_collector) : labels :=
  match rc_name c with Some n => [(str "runtime", LStr n)] | None => [] end.
(** lib.rs:375-380, 385-390, 396-401, 425-430, 446-462.  [self.0 as i64] *)
Definition worker_label (w : N) : labels := [(str "worker", LInt (u64_as_i64 w))].
Definition remote_label : labels := [(str "worker", LStr (str "remote"))].
Definition tokio_le_label (le : f64) : labels := [(str "le", LFloat le)].
Definition overflow_label (b : bool) : labels := [(str "overflow", LStr (if b then str "true" else str "false"))].
Inductive queue_kind := QWorker (w : N) | QBlocking | QInjection.
Definition queue_label (k : queue_kind) : labels :=
  [(str "kind", LStr match k with
                     | QWorker w => itoa_nat w
                     | QBlocking => str "blocking"
                     | QInjection => str "injection"
                     end)].

Section Tokio.
  (** The case conversion of derive(FixedCardinalityLabel). *)
  Variable heck : rename_all -> bytes -> bytes.
  Variable bd : build.
  (** The feature net. *)
  Variable net : bool.

  (** lib.rs:432-438 [ThreadKind], a derived enum *)
  Definition thread_kind : enum_spec :=
    {| en_rename_all := default_rename_all;
       en_variants := map (fun s => {| v_ident := str s; v_value := None; v_rename := None |})
                        ["Worker"; "Idle"; "Blocking"]%string |}.
  (** derive/src/value/to_tokens.rs:36-45: the group with the single label kind *)
  Definition thread_label (ident : string) : labels :=
    match enum_visit heck thread_kind (str ident) with
    | Some v => [(str "kind", v)]
    | None => []
    end.

  Section Collect.
    Context {S : Type} (e : encoder S).

    (** lib.rs:151-201 [metric!]: help, then [body] for every runtime with the
        labels of its name in front *)
    Definition tokio_metric (rts : list runtime_collector) (name help : string)
        (body : (labels -> labels) -> mname -> runtime -> io S) : io S :=
      e_help e (NBase (str name)) (str help) ;;?
      for_each rts (fun c => body (compose_labels (runtime_labels c)) (NBase (str name)) (rc_runtime c)).

    (** lib.rs:312-316; [total : u64] *)
    Fixpoint poll_buckets (lab : labels -> labels) (n : mname) (rt : runtime) (worker : N) (buckets : list N) (total : N) : io S :=
      match buckets with
      | [] => ret_ok
      | b :: rest =>
        with_value (u_add bd total (rt_bucket_count rt worker b)) (fun total' =>
          write_counter e (NSuffix n Bucket)
            (lab (compose_labels (worker_label worker) (tokio_le_label (histogram_le rt b)))) total' ;;?
          poll_buckets lab n rt worker rest total')
      end.

    (** lib.rs:145-345 [collect] *)
    Definition tokio_collect (rts : list runtime_collector) : io S :=
      (* 203-211 *)
      tokio_metric rts "threads" "number of threads used by the runtime" (fun lab n rt =>
        write_gauge e n (lab (thread_label "Worker")) (u64_as_i64 (rt_num_workers rt)) ;;?
        write_gauge e n (lab (thread_label "Blocking"))
          (u64_as_i64 (rt_num_blocking_threads rt - rt_num_idle_blocking_threads rt)) ;;?
        write_gauge e n (lab (thread_label "Idle")) (u64_as_i64 (rt_num_idle_blocking_threads rt))) ;;?
      (* 213-217 *)
      tokio_metric rts "active_tasks" "number of active tasks spawned in the runtime" (fun lab n rt =>
        write_gauge e n (lab []) (u64_as_i64 (rt_active_tasks rt))) ;;?
      (* 219-230 *)
      tokio_metric rts "queued_tasks" "number of tasks currently in a queue" (fun lab n rt =>
        write_gauge e n (lab (queue_label QBlocking)) (u64_as_i64 (rt_blocking_queue_depth rt)) ;;?
        write_gauge e n (lab (queue_label QInjection)) (u64_as_i64 (rt_injection_queue_depth rt)) ;;?
        for_each (range (rt_num_workers rt)) (fun w =>
          write_gauge e n (lab (queue_label (QWorker w))) (u64_as_i64 (rt_local_queue_depth rt w)))) ;;?
      (* 232-251 *)
      tokio_metric rts "scheduled_tasks_total" "total number of tasks scheduled into the runtime" (fun lab n rt =>
        for_each (range (rt_num_workers rt)) (fun w =>
          write_counter e n (lab (compose_labels (worker_label w) (overflow_label false))) (rt_local_schedule_count rt w) ;;?
          write_counter e n (lab (compose_labels (worker_label w) (overflow_label true))) (rt_overflow_count rt w)) ;;?
        write_counter e n (lab (compose_labels remote_label (overflow_label true))) (rt_remote_schedule_count rt)) ;;?
      (* 253-257 *)
      tokio_metric rts "budget_forced_yield_count" "number of tasks forced to yield after exhausting their budget" (fun lab n rt =>
        write_counter e n (lab []) (rt_forced_yield_count rt)) ;;?
      (* 259-266 *)
      tokio_metric rts "worker_mean_poll_time_seconds" "estimated weighted moving average of the poll time for this worker" (fun lab n rt =>
        for_each (range (rt_num_workers rt)) (fun w =>
          write_float_gauge e n (lab (worker_label w)) (as_secs_f64 (rt_mean_poll_time rt w)))) ;;?
      (* 268-275 *)
      tokio_metric rts "worker_noop_count" "number of times the given worker thread woke up with no work" (fun lab n rt =>
        for_each (range (rt_num_workers rt)) (fun w => write_counter e n (lab (worker_label w)) (rt_noop_count rt w))) ;;?
      (* 277-284 *)
      tokio_metric rts "worker_park_count" "number of times the given worker thread has parked" (fun lab n rt =>
        for_each (range (rt_num_workers rt)) (fun w => write_counter e n (lab (worker_label w)) (rt_park_count rt w))) ;;?
      (* 286-293 *)
      tokio_metric rts "worker_steal_count" "number of tasks the given worker thread has stolen" (fun lab n rt =>
        for_each (range (rt_num_workers rt)) (fun w => write_counter e n (lab (worker_label w)) (rt_steal_count rt w))) ;;?
      (* 295-302 *)
      tokio_metric rts "worker_steal_operations_count" "number of times the given worker thread has attempted to steal tasks" (fun lab n rt =>
        for_each (range (rt_num_workers rt)) (fun w => write_counter e n (lab (worker_label w)) (rt_steal_operations rt w))) ;;?
      (* 304-323 *)
      tokio_metric rts "worker_poll_time_seconds" "time this runtime thread has spent polling tasks" (fun lab n rt =>
        for_each (range (rt_num_workers rt)) (fun w =>
          (if rt_histogram_enabled rt then poll_buckets lab n rt w (range (rt_num_buckets rt)) 0 else ret_ok) ;;?
          write_counter e (NSuffix n Count) (lab (worker_label w)) (rt_poll_count rt w) ;;?
          write_float_gauge e (NSuffix n Sum) (lab (worker_label w)) (as_secs_f64 (rt_busy_duration rt w)))) ;;?
      (* 325-342 *)
      if net then
        tokio_metric rts "registered_fds_total" "total number of file descriptors that have been registered in the runtime" (fun lab n rt =>
          write_counter e n (lab []) (rt_fd_registered rt)) ;;?
        tokio_metric rts "deregistered_fds_total" "total number of file descriptors that have been deregistered from the runtime" (fun lab n rt =>
          write_counter e n (lab []) (rt_fd_deregistered rt)) ;;?
        tokio_metric rts "io_ready_events_total" "total number of ready events the runtime's IO driver has processed" (fun lab n rt =>
          write_counter e n (lab []) (rt_io_ready rt))
      else ret_ok.
  End Collect.

  (** lib.rs:353-355: a [RuntimeCollector] is a slice of length one *)
  Definition runtime_collect {S} (e : encoder S) (c : runtime_collector) : io S := tokio_collect e [c].
End Tokio.
