(** What the bundled collectors are to export. *)
From Coq Require Import String List NArith ZArith Bool.
From Verif Require Import Base Writer NameModel NameSpec LabelModel FloatModel EncoderModel TextSpec ProtoSpec MetricModel CollectorModel.
Import ListNotations.
Local Open Scope N_scope.

(* ------------------------------------------------------------------ *)
(** ** Families without type *)

(** A sample, whose name is that of the family or that with a suffix. *)
Record csample := { sm_suffix : option suffix; sm_labels : labels; sm_metric : metric }.
Record cfamily := { cf_name : bytes; cf_help : bytes; cf_samples : list csample }.

Definition word_of (s : suffix) : bytes :=
  match s with Total => str "total" | Count => str "count" | Sum => str "sum" | Bucket => str "bucket" end.
Definition words (s : option suffix) : list bytes := match s with Some x => [word_of x] | None => [] end.
Definition shown_name (nss : list bytes) (f : cfamily) (s : csample) : bytes := full_name nss (cf_name f) (words (sm_suffix s)).

(** The encoder a collector gets below namespaces, the outermost first. *)
Fixpoint below {S} (nss : list bytes) (e : encoder S) : encoder S :=
  match nss with [] => e | ns :: r => below r (with_namespace ns e) end.

(** The calls a family amounts to, stopping at the first error. *)
Definition call_name (nss : list bytes) (base : bytes) (s : option suffix) : mname :=
  fold_right NNamespace (match s with Some x => NSuffix (NBase base) x | None => NBase base end) nss.
Fixpoint do_samples {S} (e : encoder S) (nss : list bytes) (base : bytes) (l : list csample) (s : S) : S * result :=
  match l with
  | [] => (s, ROk)
  | x :: rest =>
    match e_collect e (sm_metric x) (sm_labels x) (call_name nss base (sm_suffix x)) s with
    | (s', ROk) => do_samples e nss base rest s'
    | (s', r) => (s', r)
    end
  end.
Fixpoint do_families {S} (e : encoder S) (nss : list bytes) (fs : list cfamily) (s : S) : S * result :=
  match fs with
  | [] => (s, ROk)
  | f :: rest =>
    match e_help e (call_name nss (cf_name f) None) (cf_help f) s with
    | (s', ROk) =>
      match do_samples e nss (cf_name f) (cf_samples f) s' with
      | (s'', ROk) => do_families e nss rest s''
      | (s'', r) => (s'', r)
      end
    | (s', r) => (s', r)
    end
  end.

(** The collector does exactly this, whatever the encoder and the namespaces. *)
Definition exports (collect : forall S, encoder S -> io S) (fs : list cfamily) : Prop :=
  forall S (e : encoder S) nss s, collect S (below nss e) s = do_families e nss fs s.

(** The samples of all families: family name, suffix, labels, value. *)
Definition all_samples (fs : list cfamily) : list (cfamily * csample) :=
  flat_map (fun f => map (pair f) (cf_samples f)) fs.

(* ------------------------------------------------------------------ *)
(** ** Lines and messages *)

(** A family in the text format: its HELP line, then its samples. *)
Definition sample_line_of (ryu : f64 -> bytes) (nss : list bytes) (f : cfamily) (s : csample) (i : item) : Prop :=
  match sm_metric s with
  | MCounter c => int_sample ryu (shown_name nss f s) (sm_labels s) (Z.of_N c) i
  | MGauge z => int_sample ryu (shown_name nss f s) (sm_labels s) z i
  | MFloatGauge x => float_sample ryu (shown_name nss f s) (sm_labels s) x i
  | MHistogram _ _ _ _ => False
  end.
Definition family_block (ryu : f64 -> bytes) (nss : list bytes) (f : cfamily) (items : list item) : Prop :=
  exists rest, items = Help (full_name nss (cf_name f) []) (skip_blanks (cf_help f)) :: rest /\
    Forall2 (sample_line_of ryu nss f) (cf_samples f) rest.
Definition families_blocks (ryu : f64 -> bytes) (nss : list bytes) (fs : list cfamily) (items : list item) : Prop :=
  exists blocks, Forall2 (family_block ryu nss) fs blocks /\ filter meaningful items = concat blocks.

(** A family in the protobuf format: name and help, no type; the samples, whose
    suffixes are lost. *)
Definition family_message (ryu : f64 -> bytes) (nss : list bytes) (f : cfamily) (p : pfamily) : Prop :=
  pf_name p = Some (full_name nss (cf_name f) []) /\ pf_help p = Some (cf_help f) /\ pf_type p = None /\
  Forall2 (fun s m => sample_shows ryu (fun z x => x = f_of_Z z) (sm_labels s, sm_metric s) m) (cf_samples f) (pf_metrics p).
Definition nonempty (fs : list cfamily) : list cfamily :=
  filter (fun f => match cf_samples f with [] => false | _ => true end) fs.

(** Values in range, as in [metric_in_range]; no histograms. *)
Definition value_ok (m : metric) : Prop :=
  match m with
  | MCounter c => c < 2 ^ 63
  | MGauge z => (- 2 ^ 63 <= z < 2 ^ 63)%Z
  | MFloatGauge x => x < 2 ^ 64
  | MHistogram _ _ _ _ => False
  end.

(* ------------------------------------------------------------------ *)
(** ** Processes *)

(** The figures of a process. *)
Inductive figure (o : os) (p : proc) : bytes -> Z -> Prop :=
| Fig_open_fds : forall n, p_fd_count p = Some n -> figure o p (str "open_fds") (Z.of_N n)
| Fig_max_fds : forall n, p_soft_limit p = Some (LimitValue n) -> figure o p (str "max_fds") (Z.of_N n)
| Fig_virtual : forall st, p_stat p = Some st -> figure o p (str "virtual_memory_bytes") (Z.of_N (ps_vsize st))
| Fig_resident : forall st, p_stat p = Some st ->
    figure o p (str "resident_memory_bytes") (Z.of_N (ps_rss st) * os_pagesize o)
| Fig_threads : forall st, p_stat p = Some st -> figure o p (str "threads") (ps_num_threads st)
| Fig_cpu : forall st v, p_stat p = Some st ->
    (v * os_clk_tck o <= Z.of_N (ps_utime st + ps_stime st) < (v + 1) * os_clk_tck o)%Z ->
    figure o p (str "cpu_seconds_total") v.

(** The process was started in second [v]. *)
Definition started (o : os) (pid : Z) (v : Z) : Prop :=
  exists boot p st, os_boot_time o = Some boot /\ os_process o pid = Some p /\ p_stat p = Some st /\
    ((v - Z.of_N boot) * os_clk_tck o <= Z.of_N (ps_starttime st) < (v - Z.of_N boot + 1) * os_clk_tck o)%Z.

(** Figures that fit the types; a running clock. *)
Definition small (x : Z) : Prop := (0 <= x < 2 ^ 63)%Z.
Definition os_ok (o : os) : Prop :=
  (0 < os_clk_tck o < 2 ^ 63)%Z /\ (0 < os_pagesize o < 2 ^ 63)%Z /\
  forall pid p, os_process o pid = Some p ->
    (forall n, p_fd_count p = Some n -> small (Z.of_N n)) /\
    (forall n, p_soft_limit p = Some (LimitValue n) -> small (Z.of_N n)) /\
    (forall st, p_stat p = Some st ->
       small (Z.of_N (ps_vsize st)) /\ small (Z.of_N (ps_rss st) * os_pagesize o) /\
       small (Z.of_N (ps_utime st + ps_stime st)) /\ small (ps_num_threads st) /\
       small (Z.of_N (ps_starttime st)) /\
       (forall boot, os_boot_time o = Some boot -> small (Z.of_N (ps_starttime st) + Z.of_N boot))).

(** One unlabelled gauge per family. *)
Definition gauge_family (name : bytes) (v : Z) (f : cfamily) : Prop :=
  cf_name f = name /\ cf_samples f = [{| sm_suffix := None; sm_labels := []; sm_metric := MGauge v |}].

(* ------------------------------------------------------------------ *)
(** ** Runtimes *)

Definition poll_family : bytes := str "worker_poll_time_seconds".

(** The labels of a worker of a runtime. *)
Definition worker_of (c : runtime_collector) (w : N) : labels :=
  match rc_name c with Some n => [(str "runtime", LStr n)] | None => [] end ++ [(str "worker", LInt (Z.of_N w))].

(** The sample is a bucket of the poll time histogram of worker [w] of runtime
    [c], with this bound and count. *)
Definition is_bucket (c : runtime_collector) (w : N) (le : f64) (v : N) (p : cfamily * csample) : Prop :=
  cf_name (fst p) = poll_family /\
  snd p = {| sm_suffix := Some Bucket; sm_labels := worker_of c w ++ [(str "le", LFloat le)]; sm_metric := MCounter v |}.

(** The polls counted in the first [k] buckets. *)
Fixpoint polls (rt : runtime) (w : N) (k : nat) : N :=
  match k with O => 0 | S k' => polls rt w k' + rt_bucket_count rt w (N.of_nat k') end.

(** Figures below 2^63, as encoders show them. *)
Definition runtime_ok (rt : runtime) : Prop :=
  rt_num_workers rt < 2 ^ 63 /\ rt_num_blocking_threads rt < 2 ^ 63 /\ rt_num_idle_blocking_threads rt < 2 ^ 63 /\
  rt_active_tasks rt < 2 ^ 63 /\ rt_blocking_queue_depth rt < 2 ^ 63 /\ rt_injection_queue_depth rt < 2 ^ 63 /\
  rt_remote_schedule_count rt < 2 ^ 63 /\ rt_forced_yield_count rt < 2 ^ 63 /\
  rt_fd_registered rt < 2 ^ 63 /\ rt_fd_deregistered rt < 2 ^ 63 /\ rt_io_ready rt < 2 ^ 63 /\
  forall w, w < rt_num_workers rt ->
    rt_local_queue_depth rt w < 2 ^ 63 /\ rt_local_schedule_count rt w < 2 ^ 63 /\ rt_overflow_count rt w < 2 ^ 63 /\
    rt_noop_count rt w < 2 ^ 63 /\ rt_park_count rt w < 2 ^ 63 /\ rt_steal_count rt w < 2 ^ 63 /\
    rt_steal_operations rt w < 2 ^ 63 /\ rt_poll_count rt w < 2 ^ 63 /\
    polls rt w (N.to_nat (rt_num_buckets rt)) < 2 ^ 63.


(** Families fit for the formats. *)
Definition cfamily_ok (f : cfamily) : Prop :=
  valid_metric_name (cf_name f) /\ plain_help (cf_help f) /\
  Forall (fun s => labels_valid (sm_labels s) /\ value_ok (sm_metric s)) (cf_samples f).

(** [m] are the values related to the elements of [l], in order; the other
    elements of [l] are related to nothing. *)
Inductive selects {A B} (R : A -> B -> Prop) : list A -> list B -> Prop :=
| Sel_nil : selects R [] []
| Sel_take : forall a b l m, R a b -> selects R l m -> selects R (a :: l) (b :: m)
| Sel_skip : forall a l m, (forall b, ~ R a b) -> selects R l m -> selects R (a :: l) m.

(** The bucket series of a worker: bounds and counts in the order of export. *)
Definition bucket_series (c : runtime_collector) (w : N) (fs : list cfamily) (l : list (f64 * N)) : Prop :=
  selects (fun p b => is_bucket c w (fst b) (snd b) p) (all_samples fs) l.

(** Two samples are of the same series when the text format shows the same name
    and labels for both. *)
Definition clash (ryu : f64 -> bytes) (nss : list bytes) (a b : cfamily * csample) : Prop :=
  shown_name nss (fst a) (snd a) = shown_name nss (fst b) (snd b) /\
  exists ts, labels_show ryu (sm_labels (snd a)) ts /\ labels_show ryu (sm_labels (snd b)) ts.

(** The upper bound of a bucket: its end in seconds; the bucket that ends with the
    largest number of nanoseconds in 64 bits is the one without bound. *)
Inductive bucket_bound (rt : runtime) (k : N) : f64 -> Prop :=
| BB_last : rt_bucket_end rt k = {| d_secs := 18446744073; d_nanos := 709551615 |} -> bucket_bound rt k f_infinity
| BB_inner : rt_bucket_end rt k <> {| d_secs := 18446744073; d_nanos := 709551615 |} ->
    bucket_bound rt k (as_secs_f64 (rt_bucket_end rt k)).

(** The bounds of a runtime's buckets are shown by different texts. *)
Definition bounds_differ (ryu : f64 -> bytes) (rt : runtime) : Prop :=
  forall j k, j < k < rt_num_buckets rt -> forall a b t, bucket_bound rt j a -> bucket_bound rt k b ->
    ~ (label_shows ryu (LFloat a) t /\ label_shows ryu (LFloat b) t).

(** The words the case conversion gives for the kinds of threads. *)
Definition kinds_differ (heck : rename_all -> bytes -> bytes) : Prop :=
  NoDup (map (fun s => heck default_rename_all (str s)) ["Worker"; "Idle"; "Blocking"]%string).
