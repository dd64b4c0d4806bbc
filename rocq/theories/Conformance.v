(** The expectations of the repository's own tests and documentation, met by the
    model.  These are tests of the model, not theorems about it. *)
From Coq Require Import String List NArith ZArith Bool.
From Verif Require Import Base Writer NameModel LabelModel VecModel VecSpec FloatModel EncoderModel FamilyModel TextModel ProtoModel ProtoSpec
  MetricModel CallModel AppExamples EndExamples ScrapeExamples.
Import ListNotations.
Local Open Scope string_scope. Local Open Scope list_scope. Local Open Scope N_scope.

(** ** Tools *)

Definition text_of (lines : list string) : bytes := concat (map (fun l => str l ++ [10]) lines).

(** The floats that occur, as ryu writes them. *)
Definition floats : list (f64 * string) :=
  [(4591870180066957722, "0.1");
     (4596373779694328218, "0.2");
     (4600877379321698714, "0.4");
     (4605380978949069210, "0.8");
     (4607182418800017408, "1.0");
     (4609884578576439706, "1.6");
     (4611686018427387904, "2.0");
     (4614388178203810202, "3.2");
     (4616189618054758400, "4.0");
     (4618891777831180698, "6.4");
     (4620693217682128896, "8.0");
     (4623170197477182669, "12.4");
     (4623395377458551194, "12.8");
     (4625196817309499392, "16.0");
     (4629700416936869888, "32.0");
     (4634204016564240384, "64.0");
     (4638707616191610880, "128.0");
     (4639213567462248284, "142.38")].
Definition ryu_table (x : f64) : bytes :=
  match find (fun p => fst p =? x) floats with Some p => str (snd p) | None => str "?" end.

(** Snake case of the identifiers that occur. *)
Definition snake (r : rename_all) (s : bytes) : bytes :=
  match find (fun p => beqb (str (fst p)) s)
    [("Create", "create"); ("Update", "update"); ("Delete", "delete"); ("DeleteAll", "delete_all"); ("Post", "post"); ("Get", "get");
     ("User", "user"); ("Internal", "internal"); ("Network", "network")] with
  | Some p => str (snd p)
  | None => str "?"
  end.

Definition plain_enum (l : list string) : enum_spec :=
  {| en_rename_all := default_rename_all;
     en_variants := map (fun i => {| v_ident := str i; v_value := None; v_rename := None |}) l |}.
Definition valued_enum (l : list (string * Z)) : enum_spec :=
  {| en_rename_all := default_rename_all;
     en_variants := map (fun p => {| v_ident := str (fst p); v_value := Some (snd p); v_rename := None |}) l |}.
Definition plain_field (n : string) (s : label_set) : field := {| f_name := str n; f_rename := None; f_set := s |}.
Definition accept_all (known : list bytes) (s : bytes) : bool := true.
Definition group_of (l : list (string * string)) : group_val := map (fun p => (str (fst p), str (snd p))) l.

(** Shards are read in order and each in the order of insertion. *)
Definition in_order {M} (d : M) : world (derived_lgset Debug) M := {|
  w_bd := Debug;
  w_default := d;
  w_hash := (fun _ => 0) : lg_unique (derived_lgset Debug) -> N;
  w_visits := fun h h' => h =? h';
  w_grows := fun _ => false;
  w_iter := fun t => t;
  w_geqb := group_val_eqb : lg_group (derived_lgset Debug) -> lg_group (derived_lgset Debug) -> bool |}.
Definition vec_after {M} (d : M) (s : group_set) (calls : list (call (derived_lgset Debug) M)) : outcome (metric_vec (derived_lgset Debug) M) :=
  let! v := vec_new Debug (derived_lgset Debug) M 4 s in run_calls (in_order d) calls v.
Definition family_after {M} (d : M) (k : kind) (read : M -> metric) (s : group_set) (calls : list (call (derived_lgset Debug) M)) : outcome family :=
  let! v := vec_after d s calls in
  Done (vec_family (derived_lgset Debug) M (fun t => t) (group_visit snake s) k read v).

Definition finished (p : text_enc * result) : outcome bytes :=
  match p with (s, ROk) => snd (buffered_finish s) | _ => Panic end.
Definition scrape_group (g : group) : outcome bytes :=
  finished (collect_group (buffered_encoder ryu_table Debug) g buffered_new).
Definition scrape_family (n : mname) (help : string) (f : family) : outcome bytes :=
  finished ((e_help (buffered_encoder ryu_table Debug) n (str help) ;;? collect_family (buffered_encoder ryu_table Debug) n f) buffered_new).

(** ** core/src/lib.rs:51-82: a derived enum *)
Definition operation : enum_spec := plain_enum ["Create"; "Update"; "Delete"; "DeleteAll"].
Example conf_operation :
  enum_cardinality operation = 4 /\
  map (fun s => enum_encode operation (str s)) ["Create"; "Update"; "Delete"; "DeleteAll"] = [Some 0; Some 1; Some 2; Some 3] /\
  map (enum_decode operation) [0; 1; 2; 3] = map (fun s => Done (str s)) ["Create"; "Update"; "Delete"; "DeleteAll"] /\
  map (fun s => enum_visit snake operation (str s)) ["Create"; "Update"; "Delete"; "DeleteAll"] =
  map (fun s => Some (LStr (str s))) ["create"; "update"; "delete"; "delete_all"].
Proof. repeat split. Qed.

(** ** core/src/lib.rs:86-113: an enum with values *)
Definition status : enum_spec := valued_enum [("Ok", 200%Z); ("ImATeapot", 418%Z); ("InternalServerError", 500%Z)].
Example conf_status :
  enum_cardinality status = 3 /\
  map (fun s => enum_encode status (str s)) ["Ok"; "ImATeapot"; "InternalServerError"] = [Some 0; Some 1; Some 2] /\
  map (enum_decode status) [0; 1; 2] = map (fun s => Done (str s)) ["Ok"; "ImATeapot"; "InternalServerError"] /\
  map (fun s => enum_visit snake status (str s)) ["Ok"; "ImATeapot"; "InternalServerError"] =
  [Some (LInt 200); Some (LInt 418); Some (LInt 500)].
Proof. repeat split. Qed.

(** ** core/src/lib.rs:117-134: renamed variants *)
Definition shouty (r : rename_all) (s : bytes) : bytes :=
  match r with
  | ShoutyKebab => if beqb s (str "ImATeapot") then str "IM-A-TEAPOT" else if beqb s (str "InternalServerError") then str "INTERNAL-SERVER-ERROR" else str "OK"
  | _ => str "?"
  end.
Definition renamed : enum_spec :=
  {| en_rename_all := ShoutyKebab;
     en_variants := [ {| v_ident := str "Ok"; v_value := None; v_rename := Some (str "a-okay") |};
                      {| v_ident := str "ImATeapot"; v_value := None; v_rename := None |};
                      {| v_ident := str "InternalServerError"; v_value := None; v_rename := None |} ] |}.
Example conf_renamed :
  map (fun s => enum_visit shouty renamed (str s)) ["Ok"; "ImATeapot"; "InternalServerError"] =
  map (fun s => Some (LStr (str s))) ["a-okay"; "IM-A-TEAPOT"; "INTERNAL-SERVER-ERROR"].
Proof. reflexivity. Qed.

(** ** core/src/lib.rs:169-215: a group with a fixed and a dynamic set *)
Definition response_set (users : list bytes) : group_set :=
  [ plain_field "kind" (SStatic (valued_enum [("Ok", 200%Z); ("BadRequest", 400%Z); ("InternalServerError", 500%Z)]));
    plain_field "route" (SFixedSet [str "/foo/bar"; str "/home"]);
    plain_field "user_name" (SInterner accept_all users) ].
Example conf_response :
  group_encode Debug (response_set []) (group_of [("kind", "InternalServerError"); ("route", "/home"); ("user_name", "conradludgate")]) =
    Done (response_set [str "conradludgate"], Some (5, [0])) /\
  group_encode Debug (response_set [str "conradludgate"]) (group_of [("kind", "Ok"); ("route", "/foo/bar"); ("user_name", "conradludgate")]) =
    Done (response_set [str "conradludgate"], Some (0, [0])).
Proof. split; reflexivity. Qed.

(** ** core/src/label.rs:39-99: every index is decoded to what it was made from *)
Definition kinds : enum_spec := plain_enum ["User"; "Internal"; "Network"].
Definition routed : group_set :=
  [ plain_field "kind" (SStatic kinds);
    plain_field "route" (SFixedSet (map str ["/user/:id/home"; "/playlist/:id"; "/user/:id/subscribe"; "/user/:id/videos"])) ].
Example conf_happy_path : group_cardinality routed = Some 12 /\
  forallb (fun route => forallb (fun kind =>
    match group_encode Debug routed [(str "kind", kind); (str "route", route)] with
    | Done (s, Some u) => match group_decode Debug s u with Done g => group_val_eqb g [(str "kind", kind); (str "route", route)] | Panic => false end
    | _ => false
    end) (map str ["User"; "Internal"; "Network"]))
    (map str ["/user/:id/home"; "/playlist/:id"; "/user/:id/subscribe"; "/user/:id/videos"]) = true /\
  group_cardinality (routed ++ [plain_field "user" (SInterner accept_all [])]) = None.
Proof. repeat split. Qed.

(** ** core/src/label/impls.rs:149-263: the four kinds of sets *)
Definition keywords : list bytes := map str ["loop"; "continue"; "break"; "fn"; "extern"].
Example conf_keywords :
  set_cardinality (SFixedSet keywords) = Some 5 /\
  map (fun k => snd (set_encode (SFixedSet keywords) k)) keywords = [Some 0; Some 1; Some 2; Some 3; Some 4] /\
  map (set_decode (SFixedSet keywords)) [0; 1; 2; 3; 4] = map (fun k => Done k) keywords /\
  set_cardinality (SInterner accept_all []) = None /\
  fold_left (fun p k => let (s, l) := (p : label_set * list (option N)) in let (s', o) := set_encode s k in (s', l ++ [o]))
    (keywords ++ keywords) (SInterner accept_all [], []) =
    (SInterner accept_all keywords, [Some 0; Some 1; Some 2; Some 3; Some 4; Some 0; Some 1; Some 2; Some 3; Some 4]) /\
  map (set_decode (SInterner accept_all keywords)) [0; 1; 2; 3; 4] = map (fun k => Done k) keywords.
Proof. repeat split. Qed.

(** ** core/src/label/group.rs:218-251: composed sets *)
Definition errors_set : group_set := [plain_field "kind" (SStatic kinds)].
Definition operations_set : group_set := [plain_field "kind" (SStatic (plain_enum ["Get"; "Post"]))].
Definition composed := composed_lgset Debug (derived_lgset Debug) (derived_lgset Debug).
Definition composed_state : lg_state composed := (operations_set, errors_set).
Definition get_user : lg_group composed := (group_of [("kind", "Get")], group_of [("kind", "User")]).
Definition post_internal : lg_group composed := (group_of [("kind", "Post")], group_of [("kind", "Internal")]).
Example conf_composed :
  lg_cardinality composed composed_state = Some 6 /\
  lg_encode composed composed_state get_user = Done (composed_state, Some ((0, []), (0, []))) /\
  lg_encode_dense composed composed_state ((0, []), (0, [])) = Done (Some 0) /\
  lg_decode_dense composed composed_state 0 = Done get_user /\
  lg_decode composed composed_state ((0, []), (0, [])) = Done get_user /\
  lg_encode composed composed_state post_internal = Done (composed_state, Some ((1, []), (1, []))) /\
  lg_encode_dense composed composed_state ((1, []), (1, [])) = Done (Some 4) /\
  lg_decode_dense composed composed_state 4 = Done post_internal /\
  lg_decode composed composed_state ((1, []), (1, [])) = Done post_internal.
Proof. repeat split. Qed.

(** ** core/src/metric.rs:518-565: cardinality and removal *)
Definition internal_error : lg_group (derived_lgset Debug) := group_of [("kind", "Internal")].
Definition user_error : lg_group (derived_lgset Debug) := group_of [("kind", "User")].
Definition two_errors : list (call (derived_lgset Debug) N) := [counter_vec_inc internal_error; counter_vec_inc user_error].
Definition cardinality_after (new : outcome (metric_vec (derived_lgset Debug) N)) (calls : list (call (derived_lgset Debug) N)) :
  outcome (N * option N) :=
  let! v := new in let! v' := run_calls (in_order 0) calls v in Done (vec_get_cardinality (derived_lgset Debug) N v').
Definition new_dense_errors := vec_new_dense (derived_lgset Debug) N errors_set.
Definition new_sparse_errors := vec_new_sparse Debug (derived_lgset Debug) N 4 errors_set.
Example conf_cardinality :
  cardinality_after new_dense_errors [] = Done (0, Some 3) /\ cardinality_after new_dense_errors two_errors = Done (2, Some 3) /\
  cardinality_after new_sparse_errors [] = Done (0, Some 3) /\ cardinality_after new_sparse_errors two_errors = Done (2, Some 3).
Proof. repeat split. Qed.
Example conf_remove :
  cardinality_after new_sparse_errors (two_errors ++ [Delete user_error]) = Done (1, Some 3) /\
  (let! v := new_sparse_errors in
   let! v1 := run_calls (in_order 0) two_errors v in
   let! p := vec_with_labels Debug (derived_lgset Debug) N (fun _ => 0) v1 user_error in
   let! q := vec_remove_metric Debug (derived_lgset Debug) N (fun h h' => h =? h') (fst p) (snd p) in
   Done (snd q)) = Done (Some 1).
Proof. split; reflexivity. Qed.

(** ** core/src/text.rs:459-473: escaping *)
Example conf_escape :
  w_out (te_writer (fst (write_label_str_value (str "Hello \ ""World""" ++ [10] ++ str "This is on a new line") (text_new (good_writer []))))) =
  str "Hello \\ \""World\""\nThis is on a new line".
Proof. reflexivity. Qed.

(** ** core/src/text.rs:476-532: a counter vec *)
Definition request_labels : group_set :=
  [ plain_field "method" (SStatic (plain_enum ["Post"; "Get"]));
    plain_field "code" (SStatic (valued_enum [("Ok", 200%Z); ("BadRequest", 400%Z)])) ].
Definition two_requests : list (call (derived_lgset Debug) N) :=
  [ counter_vec_inc_by (group_of [("method", "Post"); ("code", "Ok")] : lg_group (derived_lgset Debug)) 1027;
    counter_vec_inc_by (group_of [("method", "Get"); ("code", "BadRequest")] : lg_group (derived_lgset Debug)) 3 ].
Definition http_request_total : mname := NSuffix (NBase (str "http_request")) Total.
Example conf_counters :
  (let! f := family_after 0 KCounter MCounter request_labels two_requests in
   scrape_family http_request_total "The total number of HTTP requests." f) = Done (text_of [
    "# HELP http_request_total The total number of HTTP requests.";
    "# TYPE http_request_total counter";
    "http_request_total{method=""post"",code=""200""} 1027";
    "http_request_total{method=""get"",code=""400""} 3"]).
Proof. vm_compute. reflexivity. Qed.

(** ** core/src/text.rs:534-570: a histogram; the sum is computed in floats *)
Definition hist_after (start : f64) (xs : list f64) : outcome family :=
  let! ts := exponential_buckets ex_powi 8 start 4611686018427387904 in
  let! h := observe_all StdFrom182 ts xs (hist_new 8) in
  Done (FamMetric (hist_sample ts h)).
Example conf_histogram :
  (let! f := hist_after 4591870180066957722 [4604480259023595110; 4612811918334230528; 4608083138725491507; 4620693217682128896] in
   scrape_family (NBase (str "http_request_duration_seconds")) "A histogram of the request duration." f) = Done (text_of [
    "# HELP http_request_duration_seconds A histogram of the request duration.";
    "# TYPE http_request_duration_seconds histogram";
    "http_request_duration_seconds_bucket{le=""0.1""} 0";
    "http_request_duration_seconds_bucket{le=""0.2""} 0";
    "http_request_duration_seconds_bucket{le=""0.4""} 0";
    "http_request_duration_seconds_bucket{le=""0.8""} 1";
    "http_request_duration_seconds_bucket{le=""1.6""} 2";
    "http_request_duration_seconds_bucket{le=""3.2""} 3";
    "http_request_duration_seconds_bucket{le=""6.4""} 3";
    "http_request_duration_seconds_bucket{le=""12.8""} 4";
    "http_request_duration_seconds_bucket{le=""+Inf""} 4";
    "http_request_duration_seconds_sum 12.4";
    "http_request_duration_seconds_count 4"]).
Proof. vm_compute. reflexivity. Qed.

(** ** core/tests/histograms.rs:4-36: 17 observations *)
Definition latencies : list f64 :=
  [4581421828931458171; 4593311331947716280; 4587366580439587226; 4598355363530371236; 4604480259023595110; 4617315517961601024; 4600877379321698714; 4621819117588971520; 4602678819172646912; 4618891777831180698; 4617810913920611779; 4612586738352862003; 4610199830550355640; 4609659398595071181; 4636737291354636288; 4620434260703555092; 4591870180066957722].
Example conf_latencies :
  (let! f := hist_after 4591870180066957722 latencies in scrape_family (NBase (str "http_request_errors")) "help text" f) = Done (text_of [
    "# HELP http_request_errors help text";
    "# TYPE http_request_errors histogram";
    "http_request_errors_bucket{le=""0.1""} 3";
    "http_request_errors_bucket{le=""0.2""} 4";
    "http_request_errors_bucket{le=""0.4""} 6";
    "http_request_errors_bucket{le=""0.8""} 8";
    "http_request_errors_bucket{le=""1.6""} 9";
    "http_request_errors_bucket{le=""3.2""} 11";
    "http_request_errors_bucket{le=""6.4""} 14";
    "http_request_errors_bucket{le=""12.8""} 16";
    "http_request_errors_bucket{le=""+Inf""} 17";
    "http_request_errors_sum 142.38";
    "http_request_errors_count 17"]).
Proof. vm_compute. reflexivity. Qed.

(** ** core/tests/comparisons.rs:7-54: 2000 rounds *)
Definition routes : list bytes := map str
  ["/api/v1/users"; "/api/v1/users/:id"; "/api/v1/products"; "/api/v1/products/:id"; "/api/v1/products/:id/owner"; "/api/v1/products/:id/purchase"].
Definition errors_by_route : group_set := [plain_field "kind" (SStatic kinds); plain_field "route" (SFixedSet routes)].
Definition error_at (kind : string) (route : bytes) : lg_group (derived_lgset Debug) := [(str "kind", str kind); (str "route", route)].
Definition for_all_errors {A} (ks : list string) (f : lg_group (derived_lgset Debug) -> A) : list A :=
  flat_map (fun k => map (fun r => f (error_at k r)) routes) ks.
Example conf_comparison :
  (let! f := family_after 0 KCounter MCounter errors_by_route
     (concat (repeat (for_all_errors ["Internal"; "Network"; "User"] counter_vec_inc) 2000)) in
   scrape_group (GStruct (FieldMetric (str "http_request_errors_total") None [str " help text"] f FieldsNil))) = Done (text_of [
    "# HELP http_request_errors_total help text";
    "# TYPE http_request_errors_total counter";
    "http_request_errors_total{kind=""user"",route=""/api/v1/users""} 2000";
    "http_request_errors_total{kind=""user"",route=""/api/v1/users/:id""} 2000";
    "http_request_errors_total{kind=""user"",route=""/api/v1/products""} 2000";
    "http_request_errors_total{kind=""user"",route=""/api/v1/products/:id""} 2000";
    "http_request_errors_total{kind=""user"",route=""/api/v1/products/:id/owner""} 2000";
    "http_request_errors_total{kind=""user"",route=""/api/v1/products/:id/purchase""} 2000";
    "http_request_errors_total{kind=""internal"",route=""/api/v1/users""} 2000";
    "http_request_errors_total{kind=""internal"",route=""/api/v1/users/:id""} 2000";
    "http_request_errors_total{kind=""internal"",route=""/api/v1/products""} 2000";
    "http_request_errors_total{kind=""internal"",route=""/api/v1/products/:id""} 2000";
    "http_request_errors_total{kind=""internal"",route=""/api/v1/products/:id/owner""} 2000";
    "http_request_errors_total{kind=""internal"",route=""/api/v1/products/:id/purchase""} 2000";
    "http_request_errors_total{kind=""network"",route=""/api/v1/users""} 2000";
    "http_request_errors_total{kind=""network"",route=""/api/v1/users/:id""} 2000";
    "http_request_errors_total{kind=""network"",route=""/api/v1/products""} 2000";
    "http_request_errors_total{kind=""network"",route=""/api/v1/products/:id""} 2000";
    "http_request_errors_total{kind=""network"",route=""/api/v1/products/:id/owner""} 2000";
    "http_request_errors_total{kind=""network"",route=""/api/v1/products/:id/purchase""} 2000"]).
Proof. vm_compute. reflexivity. Qed.

(** ** core/src/metric/group.rs:180-281: a group with metrics and a namespaced
    group; the errors are looked up and not changed *)
Example conf_group :
  (let! errors := family_after 0 KCounter MCounter errors_by_route
     (for_all_errors ["Internal"; "Network"; "User"] (fun g => Update false g (fun c => Done c))) in
   let! latency := hist_after 4607182418800017408 [4616189618054758400] in
   scrape_group (GStruct
     (FieldMetric (str "events_total") None [str " help text"] (FamMetric (MCounter (counter_inc 0)))
     (FieldMetric (str "cool_factor") None [str " help text"] (FamMetric (MGauge (gauge_shared (GSet 42) 0)))
     (FieldMetric (str "latency") None [str " help text"] latency
     (FieldNamespace (str "http_request")
       (GStruct (FieldMetric (str "errors") None [str " more help wow"] errors FieldsNil)) FieldsNil)))))) = Done (text_of [
    "# HELP events_total help text";
    "# TYPE events_total counter";
    "events_total 1";
    "";
    "# HELP cool_factor help text";
    "# TYPE cool_factor gauge";
    "cool_factor 42";
    "";
    "# HELP latency help text";
    "# TYPE latency histogram";
    "latency_bucket{le=""1.0""} 0";
    "latency_bucket{le=""2.0""} 0";
    "latency_bucket{le=""4.0""} 1";
    "latency_bucket{le=""8.0""} 1";
    "latency_bucket{le=""16.0""} 1";
    "latency_bucket{le=""32.0""} 1";
    "latency_bucket{le=""64.0""} 1";
    "latency_bucket{le=""128.0""} 1";
    "latency_bucket{le=""+Inf""} 1";
    "latency_sum 4.0";
    "latency_count 1";
    "";
    "# HELP http_request_errors more help wow";
    "# TYPE http_request_errors counter";
    "http_request_errors{kind=""user"",route=""/api/v1/users""} 0";
    "http_request_errors{kind=""user"",route=""/api/v1/users/:id""} 0";
    "http_request_errors{kind=""user"",route=""/api/v1/products""} 0";
    "http_request_errors{kind=""user"",route=""/api/v1/products/:id""} 0";
    "http_request_errors{kind=""user"",route=""/api/v1/products/:id/owner""} 0";
    "http_request_errors{kind=""user"",route=""/api/v1/products/:id/purchase""} 0";
    "http_request_errors{kind=""internal"",route=""/api/v1/users""} 0";
    "http_request_errors{kind=""internal"",route=""/api/v1/users/:id""} 0";
    "http_request_errors{kind=""internal"",route=""/api/v1/products""} 0";
    "http_request_errors{kind=""internal"",route=""/api/v1/products/:id""} 0";
    "http_request_errors{kind=""internal"",route=""/api/v1/products/:id/owner""} 0";
    "http_request_errors{kind=""internal"",route=""/api/v1/products/:id/purchase""} 0";
    "http_request_errors{kind=""network"",route=""/api/v1/users""} 0";
    "http_request_errors{kind=""network"",route=""/api/v1/users/:id""} 0";
    "http_request_errors{kind=""network"",route=""/api/v1/products""} 0";
    "http_request_errors{kind=""network"",route=""/api/v1/products/:id""} 0";
    "http_request_errors{kind=""network"",route=""/api/v1/products/:id/owner""} 0";
    "http_request_errors{kind=""network"",route=""/api/v1/products/:id/purchase""} 0"]).
Proof. vm_compute. reflexivity. Qed.

(** ** core/src/docs/examples.rs *)
Definition one_counter (f : outcome family) : outcome bytes :=
  let! f := f in scrape_group (GStruct (FieldMetric (str "my_first_counter") None [str " counts things"] f FieldsNil)).
(** 7-38 *)
Example conf_doc_counter : one_counter (Done (FamMetric (MCounter (counter_inc 0)))) = Done (text_of [
    "# HELP my_first_counter counts things";
    "# TYPE my_first_counter counter";
    "my_first_counter 1"]).
Proof. vm_compute. reflexivity. Qed.
(** 47-98 *)
Example conf_doc_labels :
  one_counter (family_after 0 KCounter MCounter [plain_field "operation" (SStatic (plain_enum ["Create"; "Update"; "Delete"]))]
    [counter_vec_inc (group_of [("operation", "Create")] : lg_group (derived_lgset Debug));
     counter_vec_inc (group_of [("operation", "Delete")] : lg_group (derived_lgset Debug))]) = Done (text_of [
    "# HELP my_first_counter counts things";
    "# TYPE my_first_counter counter";
    "my_first_counter{operation=""create""} 1";
    "my_first_counter{operation=""delete""} 1"]).
Proof. vm_compute. reflexivity. Qed.
(** 110-158 (a fixed set) and 165-208 (an interner) *)
Definition two_paths (s : label_set) : outcome bytes :=
  one_counter (family_after 0 KCounter MCounter [plain_field "path" s]
    [counter_vec_inc (group_of [("path", "/api/v1/products")] : lg_group (derived_lgset Debug));
     counter_vec_inc (group_of [("path", "/api/v1/users")] : lg_group (derived_lgset Debug))]).
Definition two_paths_text : bytes := text_of [
    "# HELP my_first_counter counts things";
    "# TYPE my_first_counter counter";
    "my_first_counter{path=""/api/v1/products""} 1";
    "my_first_counter{path=""/api/v1/users""} 1"].
Example conf_doc_paths : two_paths (SFixedSet [str "/api/v1/products"; str "/api/v1/users"]) = Done two_paths_text.
Proof. vm_compute. reflexivity. Qed.
Example conf_doc_interned : two_paths (SInterner accept_all []) = Done two_paths_text.
Proof. vm_compute. reflexivity. Qed.

(** ** prometheus-proto/src/lib.rs:427-511 and 513-600: the expected messages as
    prost writes them (the bytes are made outside Coq, from generated.rs) *)
Definition request_scrape (k : kind) : outcome bytes :=
  let! f := match k with
            | KCounter => family_after 0 KCounter MCounter request_labels two_requests
            | _ => family_after 0%Z KGauge MGauge request_labels
                [ gauge_vec_call (group_of [("method", "Post"); ("code", "Ok")] : lg_group (derived_lgset Debug)) (GIncBy 1027);
                  gauge_vec_call (group_of [("method", "Get"); ("code", "BadRequest")] : lg_group (derived_lgset Debug)) (GIncBy 3) ]
            end in
  match (e_help (proto_encoder ryu_table Debug) http_request_total (str "The total number of HTTP requests.") ;;?
         collect_family (proto_encoder ryu_table Debug) http_request_total f ;;? proto_flush Debug ROk) (proto_new (good_writer [])) with
  | (s, ROk) => Done (w_out (pe_writer s))
  | _ => Panic
  end.
Example conf_proto_counters : request_scrape KCounter = Done
  [141; 1; 10; 18; 104; 116; 116; 112; 95; 114; 101; 113; 117; 101; 115; 116; 95; 116; 111; 116; 97; 108; 18; 34; 84; 104;
   101; 32; 116; 111; 116; 97; 108; 32; 110; 117; 109; 98; 101; 114; 32; 111; 102; 32; 72; 84; 84; 80; 32; 114; 101; 113;
   117; 101; 115; 116; 115; 46; 24; 0; 34; 40; 10; 14; 10; 6; 109; 101; 116; 104; 111; 100; 18; 4; 112; 111; 115; 116; 10;
   11; 10; 4; 99; 111; 100; 101; 18; 3; 50; 48; 48; 26; 9; 9; 0; 0; 0; 0; 0; 12; 144; 64; 34; 39; 10; 13; 10; 6; 109; 101;
   116; 104; 111; 100; 18; 3; 103; 101; 116; 10; 11; 10; 4; 99; 111; 100; 101; 18; 3; 52; 48; 48; 26; 9; 9; 0; 0; 0; 0; 0;
   0; 8; 64].
Proof. vm_compute. reflexivity. Qed.
Example conf_proto_gauge : request_scrape KGauge = Done
  [141; 1; 10; 18; 104; 116; 116; 112; 95; 114; 101; 113; 117; 101; 115; 116; 95; 116; 111; 116; 97; 108; 18; 34; 84; 104;
   101; 32; 116; 111; 116; 97; 108; 32; 110; 117; 109; 98; 101; 114; 32; 111; 102; 32; 72; 84; 84; 80; 32; 114; 101; 113;
   117; 101; 115; 116; 115; 46; 24; 1; 34; 40; 10; 14; 10; 6; 109; 101; 116; 104; 111; 100; 18; 4; 112; 111; 115; 116; 10;
   11; 10; 4; 99; 111; 100; 101; 18; 3; 50; 48; 48; 18; 9; 9; 0; 0; 0; 0; 0; 12; 144; 64; 34; 39; 10; 13; 10; 6; 109; 101;
   116; 104; 111; 100; 18; 3; 103; 101; 116; 10; 11; 10; 4; 99; 111; 100; 101; 18; 3; 52; 48; 48; 18; 9; 9; 0; 0; 0; 0; 0;
   0; 8; 64].
Proof. vm_compute. reflexivity. Qed.

(** ** core/src/metric.rs:577-609: labels of two sets, set, counted and removed;
    four users for 64 made up names *)
Definition some_users : list bytes := map str ["Ada"; "Alan"; "Barbara"; "Edsger"].
Definition per_user {A} (f : lg_group (derived_lgset Debug) -> A) : list A :=
  flat_map (fun k => map (fun u => f [(str "kind", str k); (str "user", u)]) some_users) ["User"; "Internal"; "Network"].
Example conf_dynamic_labels :
  (let! v := vec_new Debug (derived_lgset Debug) Z 4 [plain_field "kind" (SStatic kinds); plain_field "user" (SInterner accept_all [])] in
   let! v1 := run_calls (in_order 0%Z) (per_user (fun g => gauge_vec_call g GInc) ++ per_user (fun g => gauge_vec_call g (GIncBy 2))) v in
   let! v2 := run_calls (in_order 0%Z) (per_user Delete) v1 in
   Done (vec_get_cardinality (derived_lgset Debug) Z v1, vec_get_cardinality (derived_lgset Debug) Z v2)) =
  Done ((12, None), (0, None)).
Proof. vm_compute. reflexivity. Qed.
