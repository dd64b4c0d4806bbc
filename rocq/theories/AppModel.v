(** The example server: examples/axum-server/src/metrics.rs, with the parts of
    main.rs that use it.  What axum and tokio do is represented by the order of
    the calls: between any two of the middleware's calls on the metrics, those of
    other requests and whole scrapes may happen. *)
From Coq Require Import String List NArith ZArith Bool.
From Verif Require Import Base Writer NameModel LabelModel VecModel VecSpec FloatModel EncoderModel FamilyModel TextModel MetricModel CallModel.
Import ListNotations.
Local Open Scope N_scope.

(* ------------------------------------------------------------------ *)
(** ** The label values *)

(** metrics.rs:124-129 [Method] *)
Definition method_enum : enum_spec :=
  {| en_rename_all := default_rename_all;
     en_variants := map (fun i => {| v_ident := str i; v_value := None; v_rename := None |}) ["Get"; "Post"; "Other"]%string |}.

(** metrics.rs:131-141 [From<&http::Method> for Method]; a method is its name *)
Definition method_from (m : bytes) : bytes :=
  if beqb m (str "GET") then str "Get"
  else if beqb m (str "POST") then str "Post"
  else str "Other".

(** [http::StatusCode::from_u16] (external): 100 to 999. *)
Definition http_from_u16 (n : N) : option N := if (100 <=? n) && (n <=? 999) then Some n else None.

(** metrics.rs:146-165, a code being its number: [visit], [cardinality],
    [encode] and [decode] ([u16::try_from(value).unwrap() + 100], then
    [from_u16(..).unwrap()]). *)
Definition status_visit (c : N) : lvalue := LInt (Z.of_N c).
Definition status_cardinality : N := 1000 - 100.
Definition status_encode (bd : build) (c : N) : outcome N :=
  match bd with
  | Debug => if 100 <=? c then Done (c - 100) else Panic
  | Release => Done ((c + W64 - 100) mod W64)
  end.
Definition status_decode (bd : build) (value : N) : outcome N :=
  if value <? 2 ^ 16 then
    let! n := match bd with
              | Debug => if value + 100 <? 2 ^ 16 then Done (value + 100) else Panic
              | Release => Done ((value + 100) mod 2 ^ 16)
              end in
    match http_from_u16 n with Some c => Done c | None => Panic end
  else Panic.

(** The same as one of the sets of LabelModel: an enum with a variant for each
    code, the identifier being the number (a list of one element, since values
    are lists of numbers).  [status_represented] in AppProofs.v proves it does
    what the functions above do.
    (examples/axum-server/src/metrics.rs:105-120, the status field of the label set) *)
Definition status_value (c : N) : bytes := [c].
(* examples/axum-server/src/metrics.rs:105-120, the status field of the label set *)
Definition status_enum : enum_spec :=
  {| en_rename_all := default_rename_all;
     en_variants := map (fun i => {| v_ident := status_value (N.of_nat i); v_value := Some (Z.of_nat i); v_rename := None |}) (seq 100 900) |}.

(** metrics.rs:105-111 [HttpRequestsSet] and 113-120 [HttpResponsesSet] *)
Definition path_field (paths : label_set) : field := {| f_name := str "path"; f_rename := None; f_set := paths |}.
Definition method_field : field := {| f_name := str "method"; f_rename := None; f_set := SStatic method_enum |}.
Definition status_field : field := {| f_name := str "status"; f_rename := None; f_set := SStatic status_enum |}.
Definition requests_set (paths : label_set) : group_set := [path_field paths; method_field].
Definition responses_set (paths : label_set) : group_set := [path_field paths; method_field; status_field].

(** Values of [HttpRequests] and [HttpResponses] *)
Definition request_group (path method : bytes) : group_val := [(str "path", path); (str "method", method)].
Definition response_group (path method : bytes) (status : N) : group_val :=
  [(str "path", path); (str "method", method); (str "status", status_value status)].

(* ------------------------------------------------------------------ *)
(** ** The server *)

(** metrics.rs:40: [Thresholds::exponential_buckets(0.0001, 2.0)], 16 of them;
    the bits of 0.0001
    and of 2.0. *)
Definition f_tenth_milli : f64 := 4547007122018943789.
Definition f_2_0 : f64 := 4611686018427387904.
Definition app_thresholds (powi : f64 -> Z -> f64) : outcome (list f64) :=
  exponential_buckets powi 16 f_tenth_milli f_2_0.

Section App.
  Variable bd : build.
  Variable sv : std_version.
  Variable heck : rename_all -> bytes -> bytes.
  Variable ryu : f64 -> bytes.
  Notation L := (derived_lgset bd).
  (** The hash functions and tables of the three vecs. *)
  Variables (WQ WP : world L N) (WD : world L hist).

  (** Where the middleware is with a request (metrics.rs:77, 79-81, 84, 87-93):
      counted; waiting for the handler with the timer running; timed; over. *)
  Inductive stage :=
  | Counted
  | Waiting (t : timer (label_id L))
  | Timed
  | Over.
  Record request := { rq_path : bytes; rq_method : bytes; rq_stage : stage }.

  (** metrics.rs:19-43; the interner is one value behind an [Arc], kept in
      [ap_paths] and put into a label set whenever that is used. *)
  Record server := {
    ap_paths : label_set;
    ap_requests : metric_vec L N;
    ap_responses : metric_vec L N;
    ap_durations : metric_vec L hist;
    ap_thresholds : list f64;
    ap_encoder : text_enc;
    ap_active : list request }.

  (** metrics.rs:25-43 [AppMetrics::new] (the generated constructor), 46-51
      [AppMetricsEncoder::new]; [p] is the parallelism the shards are made for. *)
  Definition app_new (powi : f64 -> Z -> f64) (p : N) (paths : label_set) : outcome server :=
    let! q := vec_new (w_bd WQ) L N p (requests_set paths) in
    let! r := vec_new (w_bd WP) L N p (responses_set paths) in
    let! ts := app_thresholds powi in
    let! d := vec_new (w_bd WD) L hist p (requests_set paths) in
    Done {| ap_paths := paths; ap_requests := q; ap_responses := r; ap_durations := d;
            ap_thresholds := ts; ap_encoder := buffered_new; ap_active := [] |}.

  (** A vec with the interner as it is now, and the interner as the vec left it. *)
  Definition load {M} (paths : label_set) (v : metric_vec L M) : metric_vec L M :=
    {| mv_metrics := mv_metrics v; mv_set := update_set (str "path") paths (mv_set v : group_set) |}.
  (* examples/axum-server/src/metrics.rs:26-43: the vecs share one interner of paths *)
  Definition store {M} (v : metric_vec L M) (paths : label_set) : label_set :=
    match find (fun f => beqb (f_name f) (str "path")) (mv_set v : group_set) with Some f => f_set f | None => paths end.

  (* examples/axum-server/src/metrics.rs:67-91, where a request is *)
  Definition set_stage (i : nat) (s : stage) (rs : list request) : list request :=
    update_nth i (fun r => {| rq_path := rq_path r; rq_method := rq_method r; rq_stage := s |}) rs.

  (** One call of the middleware, or one request to the handler.
      [Arrive]: 67-77; [path] is the matched path, if there is one.
      [Start r now]: 79, on the request numbered [r] in order of arrival.
      [Stop r now now']: 84.  [Respond r code]: 87-91.
      [Cancel r now]: the middleware's future is dropped, or unwinds, at 81.
      [Scrape]: 97-103.  Calls the middleware cannot make are ignored. *)
  Inductive app_event :=
  | Arrive (path : option bytes) (method : bytes)
  | Start (r : nat) (now : instant)
  | Stop (r : nat) (now now' : instant)
  | Respond (r : nat) (code : N)
  | Cancel (r : nat) (now : instant)
  | Scrape.

  (** histogram.rs:234-242 on the label a timer keeps (246-263):
      [vec.get_metric(id).observe_duration_since(start)] *)
  Definition observe_id (ts : list f64) (id : label_id L) (start now : instant) (v : metric_vec L hist)
    : outcome (metric_vec L hist * duration) :=
    let step := fun m => match guard_observe_since sv ts start now m with Done (m', _) => (m', 0) | Panic => (m, 1) end in
    let! q := vec_get_metric (w_bd WD) L hist (w_default WD) (w_hash WD) (w_visits WD) (w_grows WD) v id step in
    let (v', r) := (q : metric_vec L hist * N) in
    if r =? 0 then Done (v', elapsed start now) else Panic.

  (** metrics.rs:25-43: the group as the derive makes it *)
  Definition app_group (a : server) : group :=
    let counters := fun (W : world L N) visit_set v =>
      vec_family L N (w_iter W) (group_visit heck visit_set) KCounter MCounter (load (ap_paths a) v) in
    GStruct
      (FieldMetric (str "http_requests") None [str " total number of HTTP requests by path and method"]
         (counters WQ (requests_set (ap_paths a)) (ap_requests a))
      (FieldMetric (str "http_responses") None [str " total number of HTTP responses by path, method, and status"]
         (counters WP (responses_set (ap_paths a)) (ap_responses a))
      (FieldMetric (str "http_request_duration") None [str " duration of HTTP handlers by path and method"]
         (vec_family L hist (w_iter WD) (group_visit heck (requests_set (ap_paths a))) KHistogram (hist_sample (ap_thresholds a))
            (load (ap_paths a) (ap_durations a)))
       FieldsNil))).

  (** The new state and, for a scrape, the body of the response. *)
  (* examples/axum-server/src/metrics.rs:67-103, each of these events *)
  Definition app_step (e : app_event) (a : server) : outcome (server * option bytes) :=
    match e with
    | Arrive path m =>
      let path := match path with Some x => x | None => str "unknown" end in
      let method := method_from m in
      let! q := run_call WQ (@counter_vec_inc L (request_group path method)) (load (ap_paths a) (ap_requests a)) in
      Done ({| ap_paths := store q (ap_paths a); ap_requests := q; ap_responses := ap_responses a; ap_durations := ap_durations a;
               ap_thresholds := ap_thresholds a; ap_encoder := ap_encoder a;
               ap_active := ap_active a ++ [{| rq_path := path; rq_method := method; rq_stage := Counted |}] |}, None)
    | Start i now =>
      match nth_error (ap_active a) i with
      | Some {| rq_path := path; rq_method := method; rq_stage := Counted |} =>
        let! p := vec_with_labels (w_bd WD) L hist (w_hash WD) (load (ap_paths a) (ap_durations a)) (request_group path method) in
        let (d, id) := (p : metric_vec L hist * label_id L) in
        Done ({| ap_paths := store d (ap_paths a); ap_requests := ap_requests a; ap_responses := ap_responses a; ap_durations := d;
                 ap_thresholds := ap_thresholds a; ap_encoder := ap_encoder a;
                 ap_active := set_stage i (Waiting (timer_start _ id now)) (ap_active a) |}, None)
      | _ => Done (a, None)
      end
    | Stop i now now' =>
      match nth_error (ap_active a) i with
      | Some {| rq_stage := Waiting t |} =>
        let! p := timer_observe _ _ (observe_id (ap_thresholds a)) t now now' (load (ap_paths a) (ap_durations a)) in
        Done ({| ap_paths := store (fst p) (ap_paths a); ap_requests := ap_requests a; ap_responses := ap_responses a; ap_durations := fst p;
                 ap_thresholds := ap_thresholds a; ap_encoder := ap_encoder a;
                 ap_active := set_stage i Timed (ap_active a) |}, None)
      | _ => Done (a, None)
      end
    | Respond i code =>
      match nth_error (ap_active a) i with
      | Some {| rq_path := path; rq_method := method; rq_stage := Timed |} =>
        let! r := run_call WP (@counter_vec_inc L (response_group path method code)) (load (ap_paths a) (ap_responses a)) in
        Done ({| ap_paths := store r (ap_paths a); ap_requests := ap_requests a; ap_responses := r; ap_durations := ap_durations a;
                 ap_thresholds := ap_thresholds a; ap_encoder := ap_encoder a;
                 ap_active := set_stage i Over (ap_active a) |}, None)
      | _ => Done (a, None)
      end
    | Cancel i now =>
      match nth_error (ap_active a) i with
      | Some {| rq_stage := Waiting t |} =>
        let! d := timer_drop _ _ (observe_id (ap_thresholds a)) t now (load (ap_paths a) (ap_durations a)) in
        Done ({| ap_paths := store d (ap_paths a); ap_requests := ap_requests a; ap_responses := ap_responses a; ap_durations := d;
                 ap_thresholds := ap_thresholds a; ap_encoder := ap_encoder a;
                 ap_active := set_stage i Over (ap_active a) |}, None)
      | _ => Done (a, None)
      end
    | Scrape =>
      let (s1, r) := collect_group (buffered_encoder ryu bd) (app_group a) (ap_encoder a) in
      match r with
      | ROk =>
        let (s2, out) := buffered_finish s1 in
        let! body := out in
        Done ({| ap_paths := ap_paths a; ap_requests := ap_requests a; ap_responses := ap_responses a; ap_durations := ap_durations a;
                 ap_thresholds := ap_thresholds a; ap_encoder := s2; ap_active := ap_active a |}, Some body)
      | _ => Panic
      end
    end.

  (** Any number of them; the bodies of the scrapes in order. *)
  (* examples/axum-server/src/metrics.rs:67-103, each of these events *)
  Fixpoint app_run (evs : list app_event) (a : server) : outcome (server * list bytes) :=
    match evs with
    | [] => Done (a, [])
    | e :: rest =>
      let! p := app_step e a in
      let (a1, o) := (p : server * option bytes) in
      let! q := app_run rest a1 in
      let (a2, os) := (q : server * list bytes) in
      Done (a2, match o with Some b => b :: os | None => os end)
    end.
End App.
