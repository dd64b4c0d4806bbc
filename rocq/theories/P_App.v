(** Property C67: what the example server (examples/axum-server) shows about the
    requests it has served.  [heck] is the case conversion of enum variants,
    [float_text] the float formatter. *)
From Coq Require Import String List NArith ZArith Bool Floats.SpecFloat.
From Verif Require Import Base Writer NameModel NameSpec LabelModel VecModel VecSpec VecTheorems FloatModel EncoderModel TextModel TextSpec EncoderSpec TextExamples MetricModel MetricExamples ScrapeExamples EndExamples
  AppModel AppSpec AppLives AppProofs AppTheorems AppExamples.
Import ListNotations.
Local Open Scope N_scope.

(** The hand-written label for HTTP status codes numbers the codes 100 to 999
    without gaps, *)
Theorem C67_status_codes : forall bd,
  (forall c, 100 <= c <= 999 -> exists i, status_encode bd c = Done i /\ i < status_cardinality /\ status_decode bd i = Done c) /\
  (forall i, i < status_cardinality -> exists c, status_decode bd i = Done c /\ 100 <= c <= 999 /\ status_encode bd c = Done i) /\
  (forall c, status_visit c = LInt (Z.of_N c)).
Proof. exact status_codes. Qed.
Print Assumptions C67_status_codes.

(** as the label set the model uses for it does. *)
Theorem C67_status_represented : forall bd heck,
  enum_cardinality status_enum = status_cardinality /\
  (forall c, 100 <= c <= 999 ->
     status_encode bd c = match enum_encode status_enum (status_value c) with Some i => Done i | None => Panic end /\
     enum_visit heck status_enum (status_value c) = Some (status_visit c)) /\
  (forall v, enum_decode status_enum v = match status_decode bd v with Done c => Done (status_value c) | Panic => Panic end).
Proof. exact status_represented. Qed.
Print Assumptions C67_status_represented.

Example C67_status_case : status_encode Debug 404 = Done 304 /\ status_decode Debug 304 = Done 404 /\
  status_encode Debug 99 = Panic /\ status_decode Debug 900 = Panic /\ status_decode Release 65500 = Panic.
Proof. repeat split. Qed.

(** The buckets double from 0.0001; the last ends below 3.3 seconds, not at the
    6.5 seconds of the comment. *)
Theorem C67_thresholds : forall powi, powi_exact powi -> app_thresholds powi = Done doubling /\
  Forall (fun t => f_le t 4614613358185178726 = true) doubling.
Proof. exact thresholds. Qed.
Print Assumptions C67_thresholds.

Example C67_thresholds_case : powi_exact ex_powi /\
  4547007122018943789 = f_encode (SFdiv 53 1024 (f_decode (f_of_Z 1)) (f_decode (f_of_Z 10000))) /\ length doubling = 16%nat /\
  f_le 4614613358185178726 4619004367821864960 = true.
Proof. split; [intros i _; reflexivity|]. repeat split; vm_compute; reflexivity. Qed.

(** The server starts, *)
Theorem C67_starts : forall bd (WQ WP : world (derived_lgset bd) N) (WD : world (derived_lgset bd) hist) accepts known powi par,
  powi_exact powi -> 1 <= par -> par * 4 <= 2 ^ 63 ->
  exists a, app_new bd WQ WP WD powi par (SInterner accepts known) = Done a.
Proof. exact server_starts. Qed.
Print Assumptions C67_starts.

(** and does not panic, whatever requests and scrapes come in any order, unless
    the interner refuses a path it has not seen. *)
Theorem C67_runs : forall bd sv heck float_text, float_text_ok float_text ->
  forall (WQ WP : world (derived_lgset bd) N) (WD : world (derived_lgset bd) hist), world_ok WQ -> world_ok WP -> world_ok WD ->
  w_default WQ = 0 -> w_default WP = 0 -> w_default WD = hist_new 16 ->
  forall accepts known, NoDup known ->
  forall powi par a0 evs ls, powi_exact powi -> 1 <= par -> par * 4 <= 2 ^ 63 ->
  app_new bd WQ WP WD powi par (SInterner accepts known) = Done a0 ->
  lives evs ls -> N.of_nat (length evs) < 2 ^ 63 ->
  (exists a bodies, app_run bd sv heck float_text WQ WP WD evs a0 = Done (a, bodies)) \/
  app_run bd sv heck float_text WQ WP WD evs a0 = Panic /\
  exists pre path m post a bodies l, evs = pre ++ Arrive path m :: post /\
    app_run bd sv heck float_text WQ WP WD pre a0 = Done (a, bodies) /\ ap_paths bd a = SInterner accepts l /\
    let p := match path with Some x => x | None => str "unknown" end in
    ~ In p known /\ ~ In p (arrived pre) /\ accepts l p = false.
Proof. exact server_runs. Qed.
Print Assumptions C67_runs.

Example C67_runs_case : lives ex_visit ex_visitors /\ ex_serve ex_visit = Done [ex_first_body] /\
  ex_serve (ex_visit ++ [Arrive (Some (str "/b")) (str "GET")]) = Panic.
Proof. split; [exact ex_lives|]. split; vm_refl. Qed.

(** Every scrape tells how many requests there have been by path and method,
    how many responses by path, method and status, and the times of the
    handlers, and no more. *)
Theorem C67_scrapes : forall bd sv heck float_text, float_text_ok float_text ->
  forall (WQ WP : world (derived_lgset bd) N) (WD : world (derived_lgset bd) hist), world_ok WQ -> world_ok WP -> world_ok WD ->
  w_default WQ = 0 -> w_default WP = 0 -> w_default WD = hist_new 16 ->
  forall accepts known, NoDup known ->
  forall powi par a0 pre ls post a bodies, powi_exact powi -> 1 <= par -> par * 4 <= 2 ^ 63 ->
  app_new bd WQ WP WD powi par (SInterner accepts known) = Done a0 ->
  lives pre ls -> N.of_nat (length pre) < 2 ^ 63 ->
  app_run bd sv heck float_text WQ WP WD (pre ++ Scrape :: post) a0 = Done (a, bodies) ->
  exists before body behind, bodies = before ++ body :: behind /\ length before = scrapes_in pre /\
    tells heck float_text doubling pre ls body.
Proof. exact server_scrapes. Qed.
Print Assumptions C67_scrapes.

Example C67_scrapes_case : lives ex_visit ex_visitors /\ ex_serve (ex_visit ++ [Scrape]) = Done [ex_first_body; ex_last_body] /\
  firstn 7 (lines_of ex_last_body) = map str [
    "# HELP http_requests total number of HTTP requests by path and method";
    "# TYPE http_requests counter";
    "http_requests{path=""unknown"",method=""other""} 1";
    "http_requests{path=""/a"",method=""get""} 1";
    "";
    "# HELP http_responses total number of HTTP responses by path, method, and status";
    "# TYPE http_responses counter"]%string /\
  nth 7 (lines_of ex_last_body) [] = str "http_responses{path=""/a"",method=""get"",status=""404""} 1".
Proof. split; [exact ex_lives|]. split; [vm_refl|]. split; vm_refl. Qed.

(** Requests less the handlers' times are the requests inside; the times are
    those of the responses by status, of handlers given up, and of the few
    handlers whose response is about to be counted. *)
Theorem C67_accounting : forall evs ls p m, lives evs ls ->
  number (about p m) ls = N.of_nat (length (times p m evs ls)) + number (fun q => about p m q && inside q) ls /\
  N.of_nat (length (times p m evs ls)) =
    fold_right N.add 0 (map (fun c => number (fun q => about p m q && answered (N.of_nat c) q) ls) (seq 100 900)) +
    number (fun q => about p m q && dropped q) ls + number (fun q => about p m q && between q) ls.
Proof. exact accounted. Qed.
Print Assumptions C67_accounting.

Example C67_accounting_case : lives ex_visit ex_visitors /\
  number (about (str "/a") (str "Get")) ex_visitors = 1 /\ length (times (str "/a") (str "Get") ex_visit ex_visitors) = 1%nat /\
  number (fun q => about (str "unknown") (str "Other") q && dropped q) ex_visitors = 1.
Proof. split; [exact ex_lives|]. repeat split. Qed.
