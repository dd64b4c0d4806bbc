(** Property C62: what users call is what a scrape reports.  [heck] is the case
    conversion of enum variants, [float_text] the float formatter. *)
From Coq Require Import String List NArith ZArith Bool.
From Verif Require Import Base Writer NameModel NameSpec NameProofs LabelModel LabelSpec VecModel VecSpec FloatModel EncoderModel FamilyModel
  TextModel TextSpec EncoderSpec MetricModel MetricSpec MetricExamples ScrapeSpec ScrapeExamples TextExamples CallModel VecTheorems EndSpec EndProofs EndTheorems EndExamples.
Import ListNotations.
Local Open Scope N_scope.

(** A call panics only if the label set refuses the group or the update itself
    panics, *)
Theorem C62_panics : forall L M ok wt valid, lawful L ok wt valid ->
  forall W : world L M, world_ok W ->
  forall p ls v calls, constructed W p ls v -> ok ls -> Forall (wt ls) (map call_group calls) ->
  run_calls W calls v = Panic ->
  exists pre c post v1, calls = pre ++ c :: post /\ run_calls W pre v = Done v1 /\
    (vec_with_labels (w_bd W) L M (w_hash W) v1 (call_group c) = Panic \/
     exists ex g f, c = Update ex g f /\
       f (match after (w_geqb W) (storage_of v) (w_default W) pre g with Some m => m | None => w_default W end) = Panic).
Proof. exact (fun L M ok wt valid LAW W WOK => calls_panic LAW W WOK). Qed.
Print Assumptions C62_panics.

Example C62_panics_case :
  run_calls (ex_world_at 0) [@counter_vec_inc_by (derived_lgset Debug) (ex_request "/nowhere" "Del" "bob") 1] (ex_fresh N) = Panic /\
  run_calls (ex_world_at 0) [@counter_vec_inc (derived_lgset Debug) ex_bob; @counter_vec_inc_by_mut (derived_lgset Debug) Debug ex_bob (2 ^ 64 - 1)] (ex_fresh N) = Panic.
Proof. split; vm_refl. Qed.

(** and otherwise the vec holds for each group what its updates since its last
    removal made of the default metric. *)
Theorem C62_collected : forall L M ok wt valid, lawful L ok wt valid ->
  forall W : world L M, world_ok W ->
  forall p ls v calls v', constructed W p ls v -> ok ls -> Forall (wt ls) (map call_group calls) ->
  run_calls W calls v = Done v' ->
  exists l, vec_samples L M (w_iter W) v' = Done l /\ NoDup (map fst l) /\
    forall g m, In (g, m) l <-> after (w_geqb W) (storage_of v) (w_default W) calls g = Some m.
Proof. exact (fun L M ok wt valid LAW W WOK => calls_collected LAW W WOK). Qed.
Print Assumptions C62_collected.

(** The scrape has a block of lines for each of these groups, and no other. *)
Theorem C62_scrape_reports : forall heck float_text bd M (W : world (derived_lgset bd) M), world_ok W -> float_text_ok float_text ->
  forall p s v (calls : list (call (derived_lgset bd) M)) v', constructed W p s v -> sound_set s ->
  Forall (well_shaped s) (map call_group calls) -> run_calls W calls v = Done v' ->
  let result := after (w_geqb W) (storage_of v) (w_default W) calls in
  forall k read, (forall m, metric_kind (read m) = k) -> Forall (fun f => valid_label_name (field_label f)) s ->
  (forall g m, result g = Some m -> metric_in_range (read m)) ->
  forall G nss base pre post w,
  group_events [] G (pre ++ family_events nss base (vec_family (derived_lgset bd) M (w_iter W) (group_visit heck s) k read v') ++ post) ->
  Forall event_ok (pre ++ post) -> Forall valid_metric_name (base :: nss) -> reliable w ->
  exists st out items before lines behind gs,
    collect_group (text_encoder float_text bd) G (text_new w) = (st, ROk) /\ w_out (te_writer st) = w_out w ++ out /\
    parse out = Some items /\ filter meaningful items = before ++ lines ++ behind /\
    NoDup gs /\ (forall g, In g gs <-> result g <> None) /\
    family_lines (full_name nss base []) k
      (fun g part => exists ls m, group_shown heck s g ls /\ result g = Some m /\ metric_lines float_text nss base ls (read m) part) gs lines.
Proof. exact scrape_reports. Qed.
Print Assumptions C62_scrape_reports.

Example C62_deleted : storage_of (ex_fresh N) = KSparse /\ exists v',
  run_calls (ex_world_at 0) (ex_counter_calls ++ [@Delete (derived_lgset Debug) N ex_eve]) (ex_fresh N) = Done v' /\
  ex_text (ex_vec_group "hits" KCounter MCounter v') =
    str "# TYPE hits counter" ++ [10] ++ str "hits{route=""/a"",op=""7"",user=""bob"",agent=""curl""} 7" ++ [10].
Proof.
  split; [reflexivity|]. exists (ex_called 0 (ex_counter_calls ++ [@Delete (derived_lgset Debug) N ex_eve]) (ex_fresh N)). split; vm_refl.
Qed.

(** Counters: one line per group incremented, with the sum of its increments. *)
Theorem C62_counters : forall heck float_text, float_text_ok float_text ->
  forall bd (W : world (derived_lgset bd) N), world_ok W -> w_default W = 0 ->
  forall p s v (calls : list (call (derived_lgset bd) N)) v' (l : list (group_val * N)), constructed W p s v -> sound_set s ->
  Forall (well_shaped s) (map fst l) -> Forall2 (@counts (derived_lgset bd) bd) l calls -> run_calls W calls v = Done v' ->
  Forall (fun f => valid_label_name (field_label f)) s -> (forall g, fold_right N.add 0 (given g l) < 2 ^ 63) ->
  forall G nss base pre post w,
  group_events [] G (pre ++ family_events nss base (vec_family (derived_lgset bd) N (w_iter W) (group_visit heck s) KCounter MCounter v') ++ post) ->
  Forall event_ok (pre ++ post) -> Forall valid_metric_name (base :: nss) -> reliable w ->
  reported float_text bd G w (full_name nss base []) KCounter (map fst l)
    (fun g part => exists ls i, group_shown heck s g ls /\ part = [i] /\
       int_sample float_text (full_name nss base []) ls (Z.of_N (fold_right N.add 0 (given g l))) i).
Proof. exact counter_vec_reported. Qed.
Print Assumptions C62_counters.

Example C62_counters_case : exists v', world_ok (ex_world_at 0) /\ constructed (ex_world_at 0) 3 ex_request_set (ex_fresh N) /\ sound_set ex_request_set /\
  Forall (well_shaped ex_request_set) (map fst ex_counts) /\ Forall2 (@counts (derived_lgset Debug) Debug) ex_counts ex_counter_calls /\
  run_calls (ex_world_at 0) ex_counter_calls (ex_fresh N) = Done v' /\
  Forall (fun f => valid_label_name (field_label f)) ex_request_set /\
  group_events [] (ex_vec_group "hits" KCounter MCounter v')
    ([] ++ family_events [] (str "hits") (vec_family (derived_lgset Debug) N (w_iter (ex_world_at 0)) (group_visit ex_heck ex_request_set) KCounter MCounter v') ++ []) /\
  Forall valid_metric_name [str "hits"] /\ (forall g, fold_right N.add 0 (given g ex_counts) < 2 ^ 63) /\ given ex_bob ex_counts = [3; 4] /\
  ex_text (ex_vec_group "hits" KCounter MCounter v') =
    str "# TYPE hits counter" ++ [10] ++ str "hits{route=""/"",op=""put"",user=""eve"",agent=""curl""} 1" ++ [10] ++
    str "hits{route=""/a"",op=""7"",user=""bob"",agent=""curl""} 7" ++ [10].
Proof.
  exists (ex_called 0 ex_counter_calls (ex_fresh N)). split; [apply ex_world_at_ok|]. split; [apply ex_fresh_constructed|]. split; [exact ex_request_sound|].
  split; [repeat constructor|]. split; [apply Forall2_cons; [left; reflexivity|apply Forall2_cons; [right; right; split; [reflexivity|right; reflexivity]|apply Forall2_cons; [right; left; reflexivity|apply Forall2_nil]]]|]. split; [vm_refl|].
  split; [exact ex_request_label_names|]. split; [apply ex_vec_group_events|].
  split; [repeat constructor; apply valid_metric_nameb_spec; reflexivity|]. split; [exact ex_counts_small|]. split; vm_refl.
Qed.

(** Gauges: the exact result of the calls in order, as long as it never leaves
    the range of an i64. *)
Theorem C62_gauges : forall heck float_text, float_text_ok float_text ->
  forall bd (W : world (derived_lgset bd) Z), world_ok W -> w_default W = 0%Z ->
  forall p s v v' (l : list (group_val * gauge_op)), constructed W p s v -> sound_set s ->
  Forall (well_shaped s) (map fst l) ->
  run_calls W (map (fun q => @gauge_vec_call (derived_lgset bd) (fst q) (snd q)) l) v = Done v' ->
  Forall (fun f => valid_label_name (field_label f)) s ->
  (forall g ys zs, given g l = ys ++ zs -> (- 2 ^ 63 <= fold_left on_integer ys 0 < 2 ^ 63)%Z) ->
  forall G nss base pre post w,
  group_events [] G (pre ++ family_events nss base (vec_family (derived_lgset bd) Z (w_iter W) (group_visit heck s) KGauge MGauge v') ++ post) ->
  Forall event_ok (pre ++ post) -> Forall valid_metric_name (base :: nss) -> reliable w ->
  reported float_text bd G w (full_name nss base []) KGauge (map fst l)
    (fun g part => exists ls i, group_shown heck s g ls /\ part = [i] /\
       int_sample float_text (full_name nss base []) ls (fold_left on_integer (given g l) 0%Z) i).
Proof. exact gauge_vec_reported. Qed.
Print Assumptions C62_gauges.

Example C62_gauges_case : exists v', Forall (well_shaped ex_request_set) (map fst ex_gauges) /\
  (forall g ys zs, given g ex_gauges = ys ++ zs -> (- 2 ^ 63 <= fold_left on_integer ys 0 < 2 ^ 63)%Z) /\
  run_calls (ex_world_at 0%Z) (map (fun q => @gauge_vec_call (derived_lgset Debug) (fst q) (snd q)) ex_gauges) (ex_fresh Z) = Done v' /\
  ex_text (ex_vec_group "load" KGauge MGauge v') =
    str "# TYPE load gauge" ++ [10] ++ str "load{route=""/"",op=""put"",user=""eve"",agent=""curl""} 7" ++ [10] ++
    str "load{route=""/a"",op=""7"",user=""bob"",agent=""curl""} -1" ++ [10].
Proof.
  exists (ex_called 0%Z (map (fun q => @gauge_vec_call (derived_lgset Debug) (fst q) (snd q)) ex_gauges) (ex_fresh Z)).
  split; [repeat constructor|]. split; [exact ex_gauges_small|]. split; vm_refl.
Qed.

(** Float gauges: the calls in order, each rounded to the nearest float. *)
Theorem C62_float_gauges : forall heck float_text, float_text_ok float_text ->
  forall bd (W : world (derived_lgset bd) N), world_ok W -> w_default W = 0 ->
  forall p s v v' (l : list (group_val * fgauge_op)), constructed W p s v -> sound_set s ->
  Forall (well_shaped s) (map fst l) ->
  run_calls W (map (fun q => @float_gauge_vec_call (derived_lgset bd) (fst q) (snd q)) l) v = Done v' ->
  Forall (fun f => valid_label_name (field_label f)) s ->
  (forall g y, In (g, FSet y) l -> y < 2 ^ 64) ->
  forall G nss base pre post w,
  group_events [] G (pre ++ family_events nss base (vec_family (derived_lgset bd) N (w_iter W) (group_visit heck s) KFloatGauge MFloatGauge v') ++ post) ->
  Forall event_ok (pre ++ post) -> Forall valid_metric_name (base :: nss) -> reliable w ->
  reported float_text bd G w (full_name nss base []) KFloatGauge (map fst l)
    (fun g part => exists ls i, group_shown heck s g ls /\ part = [i] /\
       float_sample float_text (full_name nss base []) ls (fold_left on_float (given g l) 0) i).
Proof. exact float_gauge_vec_reported. Qed.
Print Assumptions C62_float_gauges.

Example C62_float_gauges_case : exists v', Forall (well_shaped ex_request_set) (map fst ex_float_gauges) /\
  (forall g y, In (g, FSet y) ex_float_gauges -> y < 2 ^ 64) /\
  run_calls (ex_world_at 0) (map (fun q => @float_gauge_vec_call (derived_lgset Debug) (fst q) (snd q)) ex_float_gauges) (ex_fresh N) = Done v' /\
  vec_samples (derived_lgset Debug) N (fun t => rev t) v' = Done [(ex_eve, f_half); (ex_bob, f_1_5)].
Proof.
  exists (ex_called 0 (map (fun q => @float_gauge_vec_call (derived_lgset Debug) (fst q) (snd q)) ex_float_gauges) (ex_fresh N)).
  split; [repeat constructor|]. split; [exact ex_float_gauges_bits|]. split; vm_refl.
Qed.

(** Histograms: cumulative counts, sum and count of the group's observations,
    durations among them. *)
Theorem C62_histograms : forall heck float_text, float_text_ok float_text ->
  forall bd (W : world (derived_lgset bd) hist) sv ts, world_ok W -> w_default W = hist_new (length ts) ->
  with_buckets bd ts = Done ts -> Forall (fun t => t < 2 ^ 64) ts -> (forall t, ts = [t] -> f_is_nan t = false) ->
  forall p s v (calls : list (call (derived_lgset bd) hist)) v' (l : list (group_val * f64)), constructed W p s v -> sound_set s ->
  Forall (well_shaped s) (map fst l) -> Forall2 (@observes (derived_lgset bd) sv ts) l calls -> run_calls W calls v = Done v' ->
  Forall (fun f => valid_label_name (field_label f)) s ->
  (forall g, no_nan (given g l) /\ N.of_nat (length (given g l)) < 2 ^ 63) ->
  forall G nss base pre post w,
  group_events [] G (pre ++ family_events nss base (vec_family (derived_lgset bd) hist (w_iter W) (group_visit heck s) KHistogram (hist_sample ts) v') ++ post) ->
  Forall event_ok (pre ++ post) -> Forall valid_metric_name (base :: nss) -> reliable w ->
  reported float_text bd G w (full_name nss base []) KHistogram (map fst l)
    (fun g part => exists ls, group_shown heck s g ls /\ observed_lines float_text nss base ls ts (given g l) part).
Proof. exact histogram_vec_reported. Qed.
Print Assumptions C62_histograms.

Example C62_histograms_case : exists v', Forall (well_shaped ex_request_set) (map fst ex_observations) /\
  with_buckets Debug ex_ts = Done ex_ts /\ (forall g, no_nan (given g ex_observations) /\ N.of_nat (length (given g ex_observations)) < 2 ^ 63) /\
  Forall2 (@observes (derived_lgset Debug) StdFrom182 ex_ts) ex_observations ex_observe_calls /\
  run_calls (ex_world_at (hist_new 2)) ex_observe_calls (ex_fresh hist) = Done v' /\
  vec_samples (derived_lgset Debug) hist (fun t => rev t) v' =
    Done [(ex_eve, {| h_buckets := [0; 0]; h_inf := 1; h_sum := f_three |}); (ex_bob, {| h_buckets := [1; 1]; h_inf := 0; h_sum := f_add f_half f_two |})].
Proof.
  exists (ex_called (hist_new 2) ex_observe_calls (ex_fresh hist)).
  split; [repeat constructor|]. split; [apply ex_thresholds|]. split; [exact ex_observations_fine|]. split; [exact ex_observe_calls_fine|]. split; vm_refl.
Qed.
