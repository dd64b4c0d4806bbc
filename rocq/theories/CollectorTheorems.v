(** The tokio collector as lists of families; both collectors in both formats. *)
From Coq Require Import String List NArith ZArith Bool Lia ZifyBool ZifyN ZifyNat.
From Verif Require Import Base BaseFacts Writer NameModel NameSpec NameProofs LabelModel FloatModel FloatFacts EncoderModel
  TextModel TextSpec EncoderSpec EncoderProofs TextProofs TextParseProofs ProtoModel ProtoSpec ProtoProofs ProtoSim ProtoTheorems
  MetricModel CollectorModel CollectorSpec CollectorProofs.
Import ListNotations.
Local Open Scope N_scope.

(** ** Runtimes *)

Definition one (sf : option suffix) (ls : labels) (m : metric) : csample := {| sm_suffix := sf; sm_labels := ls; sm_metric := m |}.
Definition gz (x : N) : metric := MGauge (Z.of_N x).
Definition bucket_samples (c : runtime_collector) (w : N) (from n : nat) : list csample :=
  map (fun j => one (Some Bucket) (worker_of c w ++ [(str "le", LFloat (histogram_le (rc_runtime c) (N.of_nat j)))])
                  (MCounter (polls (rc_runtime c) w (S j)))) (seq from n).
Definition poll_samples (c : runtime_collector) (w : N) : list csample :=
  (if rt_histogram_enabled (rc_runtime c) then bucket_samples c w 0 (N.to_nat (rt_num_buckets (rc_runtime c))) else []) ++
  [one (Some Count) (worker_of c w) (MCounter (rt_poll_count (rc_runtime c) w));
   one (Some Sum) (worker_of c w) (MFloatGauge (as_secs_f64 (rt_busy_duration (rc_runtime c) w)))].
Definition per_worker (f : runtime -> N -> metric) (c : runtime_collector) : list csample :=
  map (fun w => one None (worker_of c w) (f (rc_runtime c) w)) (range (rt_num_workers (rc_runtime c))).
Definition per_runtime (f : runtime -> metric) (c : runtime_collector) : list csample :=
  [one None (runtime_labels c) (f (rc_runtime c))].
Definition tfam (rts : list runtime_collector) (name help : string) (g : runtime_collector -> list csample) : cfamily :=
  {| cf_name := str name; cf_help := str help; cf_samples := flat_map g rts |}.

Section Tokio.
  Variable heck : rename_all -> bytes -> bytes.

  Definition thread_samples (c : runtime_collector) : list csample :=
    let rt := rc_runtime c in
    [one None (runtime_labels c ++ thread_label heck "Worker") (gz (rt_num_workers rt));
     one None (runtime_labels c ++ thread_label heck "Blocking") (gz (rt_num_blocking_threads rt - rt_num_idle_blocking_threads rt));
     one None (runtime_labels c ++ thread_label heck "Idle") (gz (rt_num_idle_blocking_threads rt))].
  Definition queue_samples (c : runtime_collector) : list csample :=
    let rt := rc_runtime c in
    [one None (runtime_labels c ++ queue_label QBlocking) (gz (rt_blocking_queue_depth rt));
     one None (runtime_labels c ++ queue_label QInjection) (gz (rt_injection_queue_depth rt))] ++
    map (fun w => one None (runtime_labels c ++ queue_label (QWorker w)) (gz (rt_local_queue_depth rt w))) (range (rt_num_workers rt)).
  Definition schedule_samples (c : runtime_collector) : list csample :=
    let rt := rc_runtime c in
    flat_map (fun w =>
      [one None (worker_of c w ++ overflow_label false) (MCounter (rt_local_schedule_count rt w));
       one None (worker_of c w ++ overflow_label true) (MCounter (rt_overflow_count rt w))]) (range (rt_num_workers rt)) ++
    [one None (runtime_labels c ++ remote_label ++ overflow_label true) (MCounter (rt_remote_schedule_count rt))].
  Definition all_polls (c : runtime_collector) : list csample :=
    flat_map (poll_samples c) (range (rt_num_workers (rc_runtime c))).

  Definition before_polls (rts : list runtime_collector) : list cfamily :=
    [tfam rts "threads" "number of threads used by the runtime" thread_samples;
     tfam rts "active_tasks" "number of active tasks spawned in the runtime" (per_runtime (fun rt => gz (rt_active_tasks rt)));
     tfam rts "queued_tasks" "number of tasks currently in a queue" queue_samples;
     tfam rts "scheduled_tasks_total" "total number of tasks scheduled into the runtime" schedule_samples;
     tfam rts "budget_forced_yield_count" "number of tasks forced to yield after exhausting their budget"
       (per_runtime (fun rt => MCounter (rt_forced_yield_count rt)));
     tfam rts "worker_mean_poll_time_seconds" "estimated weighted moving average of the poll time for this worker"
       (per_worker (fun rt w => MFloatGauge (as_secs_f64 (rt_mean_poll_time rt w))));
     tfam rts "worker_noop_count" "number of times the given worker thread woke up with no work"
       (per_worker (fun rt w => MCounter (rt_noop_count rt w)));
     tfam rts "worker_park_count" "number of times the given worker thread has parked"
       (per_worker (fun rt w => MCounter (rt_park_count rt w)));
     tfam rts "worker_steal_count" "number of tasks the given worker thread has stolen"
       (per_worker (fun rt w => MCounter (rt_steal_count rt w)));
     tfam rts "worker_steal_operations_count" "number of times the given worker thread has attempted to steal tasks"
       (per_worker (fun rt w => MCounter (rt_steal_operations rt w)))].
  Definition poll_fam (rts : list runtime_collector) : cfamily :=
    tfam rts "worker_poll_time_seconds" "time this runtime thread has spent polling tasks" all_polls.
  Definition after_polls (net : bool) (rts : list runtime_collector) : list cfamily :=
    if net then
      [tfam rts "registered_fds_total" "total number of file descriptors that have been registered in the runtime"
         (per_runtime (fun rt => MCounter (rt_fd_registered rt)));
       tfam rts "deregistered_fds_total" "total number of file descriptors that have been deregistered from the runtime"
         (per_runtime (fun rt => MCounter (rt_fd_deregistered rt)));
       tfam rts "io_ready_events_total" "total number of ready events the runtime's IO driver has processed"
         (per_runtime (fun rt => MCounter (rt_io_ready rt)))]
    else [].
  Definition tokio_families (net : bool) (rts : list runtime_collector) : list cfamily :=
    before_polls rts ++ [poll_fam rts] ++ after_polls net rts.
End Tokio.

Lemma in_range : forall n w, In w (range n) <-> w < n.
Proof.
  intros n w. unfold range. rewrite in_map_iff. split.
  - intros (k & <- & I). apply in_seq in I. lia.
  - intros H. exists (N.to_nat w). rewrite N2Nat.id. split; [reflexivity|]. apply in_seq. lia.
Qed.

Lemma worker_labels : forall c w, w < 2 ^ 63 -> runtime_labels c ++ worker_label w = worker_of c w.
Proof. intros c w H. unfold worker_of, runtime_labels, worker_label. rewrite u64_small by exact H. reflexivity. Qed.

Lemma flat_one : forall A B (f : A -> B) l, map f l = flat_map (fun x => [f x]) l.
Proof. induction l as [|x l IH]; cbn [map flat_map app]; [reflexivity|]. now rewrite IH. Qed.

Lemma polls_mono : forall rt w a b, (a <= b)%nat -> polls rt w a <= polls rt w b.
Proof. intros rt w a b L. induction L; [lia|]. cbn [polls]. lia. Qed.

Section Export.
  Variables (heck : rename_all -> bytes -> bytes) (bd : build) (net : bool).
  Context {S0 : Type} (e : encoder S0) (nss : list bytes).

  Lemma sends_buckets : forall c w base lab m k, runtime_ok (rc_runtime c) -> w < 2 ^ 63 ->
    lab = compose_labels (runtime_labels c) -> polls (rc_runtime c) w (k + m) < 2 ^ 63 ->
    sends e nss base (poll_buckets bd (below nss e) lab (NBase base) (rc_runtime c) w (map N.of_nat (seq k m)) (polls (rc_runtime c) w k))
      (bucket_samples c w k m).
  Proof.
    intros c w base lab m. induction m as [|m IH]; intros k OK W -> P; cbn [seq map poll_buckets bucket_samples]; [apply sends_nil|].
    unfold with_value. rewrite u64_add_small.
    2:{ change (polls (rc_runtime c) w k + rt_bucket_count (rc_runtime c) w (N.of_nat k)) with (polls (rc_runtime c) w (S k)).
        eapply N.le_lt_trans; [|exact P]. apply polls_mono. lia. }
    change (polls (rc_runtime c) w k + rt_bucket_count (rc_runtime c) w (N.of_nat k)) with (polls (rc_runtime c) w (S k)).
    change (one ?a ?b ?d :: map ?f (seq (S k) m)) with ([one a b d] ++ bucket_samples c w (S k) m).
    intros s. change ((fun s0 => (write_counter (below nss e) (NSuffix (NBase base) Bucket)
      (compose_labels (runtime_labels c) (compose_labels (worker_label w) (tokio_le_label (histogram_le (rc_runtime c) (N.of_nat k)))))
      (polls (rc_runtime c) w (S k)) ;;?
      poll_buckets bd (below nss e) (compose_labels (runtime_labels c)) (NBase base) (rc_runtime c) w (map N.of_nat (seq (S k) m)) (polls (rc_runtime c) w (S k))) s0) s =
      do_samples e nss base ([one (Some Bucket) (worker_of c w ++ [(str "le", LFloat (histogram_le (rc_runtime c) (N.of_nat k)))])
                  (MCounter (polls (rc_runtime c) w (S k)))] ++ bucket_samples c w (S k) m) s).
    revert s. apply sends_app.
    - unfold write_counter, compose_labels. rewrite app_assoc, worker_labels by exact W. apply sends_one. reflexivity.
    - apply IH; auto. replace (S k + m)%nat with (k + S m)%nat by lia. exact P.
  Qed.

  Ltac figures H := destruct H as (H1 & H2 & H3 & H4 & H5 & H6 & H7 & H8 & H9 & H10 & H11 & HW).

  Lemma sends_per_runtime : forall base c (f : runtime -> metric) m ls,
    m = f (rc_runtime c) -> ls = runtime_labels c ->
    sends e nss base (e_collect (below nss e) m ls (NBase base)) (per_runtime f c).
  Proof. intros base c f m ls -> ->. apply sends_one. reflexivity. Qed.

  Lemma sends_per_worker : forall base c (f : runtime -> N -> metric), rt_num_workers (rc_runtime c) < 2 ^ 63 ->
    sends e nss base (for_each (range (rt_num_workers (rc_runtime c))) (fun w =>
      e_collect (below nss e) (f (rc_runtime c) w) (compose_labels (runtime_labels c) (worker_label w)) (NBase base))) (per_worker f c).
  Proof.
    intros base c f L. unfold per_worker. rewrite flat_one. apply sends_each. intros w W. apply in_range in W.
    unfold compose_labels. rewrite worker_labels by lia. apply sends_one. reflexivity.
  Qed.

  Lemma tokio_acts : forall rts, Forall (fun c => runtime_ok (rc_runtime c)) rts ->
    acts e nss (tokio_collect heck bd net (below nss e) rts) (tokio_families heck net rts).
  Proof.
    intros rts F. rewrite Forall_forall in F. unfold tokio_collect, tokio_families, before_polls, after_polls. cbn [app].
    repeat match goal with |- acts e nss (_ ;;? (_ ;;? _)) (?x :: ?r) => apply (acts_app e nss _ _ [x] r); [apply acts_metric; intros c I; specialize (F c I); figures F|] end;
      cbv beta.
    - unfold thread_samples. cbv zeta.
      apply (sends_app e nss _ _ _ [_] [_; _]); [rewrite u64_small by exact H1; apply sends_one; reflexivity|].
      apply (sends_app e nss _ _ _ [_] [_]); rewrite u64_small by lia; apply sends_one; reflexivity.
    - apply sends_per_runtime; [|unfold compose_labels; apply app_nil_r]. rewrite u64_small by exact H4. reflexivity.
    - unfold queue_samples. cbv zeta.
      apply (sends_app e nss _ _ _ [_] (_ :: _)); [rewrite u64_small by exact H5; apply sends_one; reflexivity|].
      apply (sends_app e nss _ _ _ [_] _); [rewrite u64_small by exact H6; apply sends_one; reflexivity|].
      rewrite flat_one. apply sends_each. intros w W. apply in_range in W. destruct (HW w W) as (Q & _).
      rewrite u64_small by exact Q. apply sends_one. reflexivity.
    - unfold schedule_samples. cbv zeta. apply sends_app.
      + apply sends_each. intros w W. apply in_range in W. unfold compose_labels. rewrite !app_assoc, worker_labels by lia.
        apply (sends_app e nss _ _ _ [_] [_]); apply sends_one; reflexivity.
      + apply sends_one. reflexivity.
    - apply sends_per_runtime; [reflexivity|unfold compose_labels; apply app_nil_r].
    - apply (sends_per_worker _ c (fun rt w => MFloatGauge (as_secs_f64 (rt_mean_poll_time rt w))) H1).
    - apply (sends_per_worker _ c (fun rt w => MCounter (rt_noop_count rt w)) H1).
    - apply (sends_per_worker _ c (fun rt w => MCounter (rt_park_count rt w)) H1).
    - apply (sends_per_worker _ c (fun rt w => MCounter (rt_steal_count rt w)) H1).
    - apply (sends_per_worker _ c (fun rt w => MCounter (rt_steal_operations rt w)) H1).
    - match goal with |- acts e nss (_ ;;? _) (?x :: ?r) => apply (acts_app e nss _ _ [x] r) end.
      + apply acts_metric. intros c I. specialize (F c I). figures F. cbv beta.
        apply sends_each. intros w W. apply in_range in W. destruct (HW w W) as (_ & _ & _ & _ & _ & _ & _ & _ & PB).
        unfold poll_samples. apply sends_app.
        * destruct (rt_histogram_enabled (rc_runtime c)); [|apply sends_nil].
          apply (sends_buckets c w _ _ (N.to_nat (rt_num_buckets (rc_runtime c))) 0); auto; [|lia].
          repeat (split; [assumption|]). exact HW.
        * unfold compose_labels. rewrite worker_labels by lia.
          apply (sends_app e nss _ _ _ [_] [_]); apply sends_one; reflexivity.
      + destruct net; [|apply acts_nil].
        repeat match goal with |- acts e nss (_ ;;? _) (?x :: ?r) => apply (acts_app e nss _ _ [x] r) end;
          apply acts_metric; intros c I; specialize (F c I); figures F; cbv beta;
          (apply sends_per_runtime; [reflexivity|unfold compose_labels; apply app_nil_r]).
  Qed.
End Export.

Lemma tokio_exports : forall heck bd net rts, Forall (fun c => runtime_ok (rc_runtime c)) rts ->
  exports (fun S e => tokio_collect heck bd net e rts) (tokio_families heck net rts).
Proof. intros heck bd net rts F S e nss. apply tokio_acts. exact F. Qed.
