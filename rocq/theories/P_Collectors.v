(** Properties C50-C52 and C56: the process and tokio collectors. *)
From Coq Require Import String List NArith ZArith Bool.
From Verif Require Import Base Writer NameModel NameSpec LabelModel FloatModel EncoderModel TextModel TextSpec
  EncoderSpec TextExamples ProtoModel ProtoSpec MetricModel CollectorModel CollectorSpec CollectorFinal
  CollectorExamples.
Import ListNotations.
Local Open Scope N_scope.

(** C50: exactly the figures of the process are exported, one gauge each, and the
    start time the collector remembers. *)
Theorem C50_figures : forall bd o c p, os_ok o -> os_process o (pc_pid c) = Some p -> exists fs,
  exports (fun S e => process_collect bd o c e) fs /\ NoDup (map cf_name fs) /\
  Forall (fun f => exists name v, gauge_family name v f) fs /\
  forall name v, (exists f, In f fs /\ gauge_family name v f) <->
    figure o p name v \/ (name = str "start_time_seconds" /\ pc_start_time c = Some v).
Proof. exact process_main. Qed.
Print Assumptions C50_figures.

(** A process that has ended gives no output and no error. *)
Theorem C50_gone : forall bd o c, os_process o (pc_pid c) = None ->
  exports (fun S e => process_collect bd o c e) [].
Proof. exact process_gone. Qed.
Print Assumptions C50_gone.

(** The collector for the caller remembers when the caller was started. *)
Theorem C50_for_self : forall bd o, os_ok o -> exists c, process_for_self bd o = Done c /\ pc_pid c = os_self o /\
  forall v, pc_start_time c = Some v <-> started o (pc_pid c) v.
Proof. exact process_self_main. Qed.
Print Assumptions C50_for_self.

(** The full claim would be the same for [process_new bd o pid] and any pid.  It
    is false: process 9 was started in second 1900, the collector for it says
    1003, when the caller was started. *)
Theorem C50_start_refuted : os_ok ex_os /\ started ex_os 9 1900 /\ exists c, process_new Debug ex_os 9 = Done c /\
  pc_start_time c = Some 1003%Z /\ ~ started ex_os 9 1003.
Proof. exact start_refuted. Qed.
Print Assumptions C50_start_refuted.

Example C50_nonvacuous : exists c, process_for_self Debug ex_os = Done c /\
  os_process ex_os (pc_pid c) <> None /\ os_process ex_os 8 = None /\
  ex_text (process_collect Debug ex_os c) = Some
    [Help (str "open_fds") (str "Number of open file descriptors."); Sample (str "open_fds") [] (str "12") None; Blank;
     Help (str "max_fds") (str "Maximum number of open file descriptors."); Sample (str "max_fds") [] (str "1024") None; Blank;
     Help (str "virtual_memory_bytes") (str "Virtual memory size in bytes.");
     Sample (str "virtual_memory_bytes") [] (str "8192") None; Blank;
     Help (str "resident_memory_bytes") (str "Resident memory size in bytes.");
     Sample (str "resident_memory_bytes") [] (str "12288") None; Blank;
     Help (str "cpu_seconds_total") (str "Total user and system CPU time spent in seconds.");
     Sample (str "cpu_seconds_total") [] (str "2") None; Blank;
     Help (str "threads") (str "Number of OS threads in the process."); Sample (str "threads") [] (str "4") None; Blank;
     Help (str "start_time_seconds") (str "Start time of the process since unix epoch in seconds.");
     Sample (str "start_time_seconds") [] (str "1003") None].
Proof. eexists. split; [reflexivity|]. split; [discriminate|]. split; vm_compute; reflexivity. Qed.

(** C51: in the text format each family is its HELP line and its samples, all
    families have different names. *)
Theorem C51_process_text : forall ryu bd, float_text_ok ryu -> forall nss, Forall valid_metric_name nss ->
  forall o o' pid c w, os_ok o -> process_new bd o pid = Done c -> os_ok o' -> reliable w ->
  exists fs s out items, exports (fun S e => process_collect bd o' c e) fs /\ NoDup (map cf_name fs) /\
    process_collect bd o' c (below nss (text_encoder ryu bd)) (text_new w) = (s, ROk) /\
    w_out (te_writer s) = w_out w ++ out /\ parse out = Some items /\ families_blocks ryu nss fs items /\ framed items.
Proof. exact process_text_main. Qed.
Print Assumptions C51_process_text.

Theorem C51_tokio_text : forall ryu bd, float_text_ok ryu -> forall nss, Forall valid_metric_name nss ->
  forall heck net rts w, Forall (fun c => runtime_ok (rc_runtime c)) rts -> reliable w ->
  exists fs s out items, exports (fun S e => tokio_collect heck bd net e rts) fs /\ NoDup (map cf_name fs) /\
    tokio_collect heck bd net (below nss (text_encoder ryu bd)) rts (text_new w) = (s, ROk) /\
    w_out (te_writer s) = w_out w ++ out /\ parse out = Some items /\ families_blocks ryu nss fs items /\ framed items.
Proof. exact tokio_text_main. Qed.
Print Assumptions C51_tokio_text.

(** In the protobuf format each family with samples is one message with name and
    help. *)
Theorem C51_process_proto : forall ryu bd nss o o' pid c w, os_ok o -> process_new bd o pid = Done c -> os_ok o' ->
  reliable w -> w_out w = [] ->
  exists fs s, exports (fun S e => process_collect bd o' c e) fs /\ NoDup (map cf_name fs) /\
    (process_collect bd o' c (below nss (proto_encoder ryu bd)) ;;? proto_flush bd ROk) (proto_new w) = (s, ROk) /\
    (nlen (w_out (pe_writer s)) < 2 ^ 64 ->
     exists ps, read_stream (w_out (pe_writer s)) = Some ps /\ Forall2 (family_message ryu nss) (nonempty fs) ps).
Proof. exact process_proto_main. Qed.
Print Assumptions C51_process_proto.

Theorem C51_tokio_proto : forall ryu bd nss heck net rts w, Forall (fun c => runtime_ok (rc_runtime c)) rts ->
  reliable w -> w_out w = [] ->
  exists fs s, exports (fun S e => tokio_collect heck bd net e rts) fs /\ NoDup (map cf_name fs) /\
    (tokio_collect heck bd net (below nss (proto_encoder ryu bd)) rts ;;? proto_flush bd ROk) (proto_new w) = (s, ROk) /\
    (nlen (w_out (pe_writer s)) < 2 ^ 64 ->
     exists ps, read_stream (w_out (pe_writer s)) = Some ps /\ Forall2 (family_message ryu nss) (nonempty fs) ps).
Proof. exact tokio_proto_main. Qed.
Print Assumptions C51_tokio_proto.

(** The full claim also asks for the type.  It is false: whatever the families,
    such an output has no TYPE line (and [family_message] has no type). *)
Theorem C51_type_refuted : forall ryu nss fs items, families_blocks ryu nss fs items ->
  forall n w, ~ In (Type_ n w) items.
Proof. exact blocks_untyped. Qed.
Print Assumptions C51_type_refuted.

(** Protobuf names the message, not the samples, so that buckets, count and sum of
    the poll times end up in one family, the latter two with the same labels. *)
Theorem C51_proto_suffix_refuted : exists ps p m m',
  ex_proto (fun e => tokio_collect ex_lower Debug false e ex_runtimes) = Some ps /\
  In p ps /\ pf_name p = Some poll_family /\ length (pf_metrics p) = 16%nat /\
  nth_error (pf_metrics p) 2 = Some m /\ nth_error (pf_metrics p) 3 = Some m' /\
  pm_labels m = pm_labels m' /\ m <> m'.
Proof. exact proto_suffix. Qed.
Print Assumptions C51_proto_suffix_refuted.

Example C51_nonvacuous : Forall (fun c => runtime_ok (rc_runtime c)) ex_runtimes /\
  (exists items, ex_text (fun e => tokio_collect ex_lower Debug false e ex_runtimes) = Some items /\ length items = 85%nat /\
     firstn 7 items =
       [Help (str "threads") (str "number of threads used by the runtime");
        Sample (str "threads") [(str "runtime", str "main"); (str "kind", str "worker")] (str "2") None;
        Sample (str "threads") [(str "runtime", str "main"); (str "kind", str "blocking")] (str "3") None;
        Sample (str "threads") [(str "runtime", str "main"); (str "kind", str "idle")] (str "2") None;
        Sample (str "threads") [(str "runtime", str "aux"); (str "kind", str "worker")] (str "2") None;
        Sample (str "threads") [(str "runtime", str "aux"); (str "kind", str "blocking")] (str "3") None;
        Sample (str "threads") [(str "runtime", str "aux"); (str "kind", str "idle")] (str "2") None]) /\
  exists ps, ex_proto (fun e => tokio_collect ex_lower Debug true e ex_runtimes) = Some ps /\ length ps = 14%nat.
Proof. exact tokio_example. Qed.

(** C52: the bucket series of each worker is the running total of its buckets, it
    never decreases and ends with the total of all buckets. *)
Theorem C52_cumulative : forall heck bd net rts c w, Forall (fun c => runtime_ok (rc_runtime c)) rts ->
  NoDup (map rc_name rts) -> In c rts -> w < rt_num_workers (rc_runtime c) ->
  exists fs l, exports (fun S e => tokio_collect heck bd net e rts) fs /\ bucket_series c w fs l /\
    (rt_histogram_enabled (rc_runtime c) = false -> l = []) /\
    (rt_histogram_enabled (rc_runtime c) = true ->
     length l = N.to_nat (rt_num_buckets (rc_runtime c)) /\
     (forall k le v, nth_error l k = Some (le, v) ->
        bucket_bound (rc_runtime c) (N.of_nat k) le /\ v = polls (rc_runtime c) w (S k)) /\
     (forall i j le v le' v', (i <= j)%nat -> nth_error l i = Some (le, v) -> nth_error l j = Some (le', v') -> v <= v') /\
     (l <> [] -> snd (last l (0, 0)) = polls (rc_runtime c) w (N.to_nat (rt_num_buckets (rc_runtime c))))).
Proof. exact cumulative_main. Qed.
Print Assumptions C52_cumulative.

Example C52_nonvacuous : NoDup (map rc_name ex_runtimes) /\ exists c, In c ex_runtimes /\ rc_name c = Some (str "main") /\
  1 < rt_num_workers (rc_runtime c) /\ rt_histogram_enabled (rc_runtime c) = true /\
  bucket_bound (rc_runtime c) 1 f_infinity /\ bucket_bound (rc_runtime c) 0 (f_of_Z 1) /\
  polls (rc_runtime c) 1 1 = 41 /\ polls (rc_runtime c) 1 2 = 43.
Proof. exact cumulative_example. Qed.

(** C56: no two samples of the tokio collector have the same name and labels, as
    long as the names of the runtimes are different. *)
Theorem C56_series_distinct : forall ryu nss heck bd net rts, Forall (fun c => runtime_ok (rc_runtime c)) rts ->
  NoDup (map rc_name rts) -> kinds_differ heck -> Forall (fun c => bounds_differ ryu (rc_runtime c)) rts ->
  exists fs, exports (fun S e => tokio_collect heck bd net e rts) fs /\
    ForallOrdPairs (fun a b => ~ clash ryu nss a b) (all_samples fs).
Proof. exact series_main. Qed.
Print Assumptions C56_series_distinct.

Example C56_nonvacuous : Forall (fun c => runtime_ok (rc_runtime c)) ex_runtimes /\ NoDup (map rc_name ex_runtimes) /\
  kinds_differ ex_lower /\ Forall (fun c => bounds_differ ex_ryu (rc_runtime c)) ex_runtimes.
Proof. exact series_example. Qed.

(** The full claim would hold for any calls of [add].  It is false: adding two
    runtimes under one name gives each series twice. *)
Theorem C56_same_name_refuted : forall ryu nss bd, exists fs a b,
  exports (fun S e => tokio_collect ex_lower bd false e ex_twice) fs /\
  nth_error (all_samples fs) 6 = Some a /\ nth_error (all_samples fs) 7 = Some b /\ clash ryu nss a b.
Proof. exact series_refuted. Qed.
Print Assumptions C56_same_name_refuted.
