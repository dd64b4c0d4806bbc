(** Property C65: what users call is what a protobuf scrape reports.  [heck] is
    the case conversion of enum variants, [float_text] the float formatter. *)
From Coq Require Import String List NArith ZArith Bool.
From Verif Require Import Base Writer NameModel NameSpec LabelModel LabelSpec VecModel VecSpec FloatModel FloatOrder EncoderModel FamilyModel
  TextModel TextSpec EncoderSpec MetricModel MetricSpec MetricProofs MetricExamples ScrapeSpec ScrapeExamples TextExamples CallModel VecTheorems EndSpec EndExamples
  ProtoModel ProtoSpec ProtoEndSpec ProtoEndTheorems ProtoEndExamples.
Import ListNotations.
Local Open Scope N_scope.

(** C48: the double for an integer of 64 bits is within one part in 2^53. *)
Theorem C48_near : forall z, (- 2 ^ 64 <= z <= 2 ^ 64)%Z -> int_double z (f_of_Z z).
Proof. exact of_Z_int_double. Qed.
Print Assumptions C48_near.

Example C48_near_case : fv (f_of_Z (2 ^ 53 + 1)) <> ((2 ^ 53 + 1) * 2 ^ SC)%Z /\ fv (f_of_Z (- 3)) = (- 3 * 2 ^ SC)%Z.
Proof. split; [vm_compute; discriminate|vm_compute; reflexivity]. Qed.

(** Counters: one metric per group incremented, with the sum of its increments. *)
Theorem C65_counters : forall heck float_text bd (W : world (derived_lgset bd) N), world_ok W -> w_default W = 0 ->
  forall p s v (calls : list (call (derived_lgset bd) N)) v' (l : list (group_val * N)), constructed W p s v -> sound_set s ->
  Forall (well_shaped s) (map fst l) -> Forall2 (@counts (derived_lgset bd) bd) l calls -> run_calls W calls v = Done v' -> l <> [] ->
  (forall g, fold_right N.add 0 (given g l) < 2 ^ 64) ->
  forall G nss base help r pre post w,
  family_content nss base help (vec_family (derived_lgset bd) N (w_iter W) (group_visit heck s) KCounter MCounter v') = Some r ->
  group_families [] G (pre ++ r :: post) -> Forall rf_ok (pre ++ post) -> Forall rf_bits_ok (pre ++ post) ->
  ~ misleading (pre ++ r :: post) -> reliable w -> w_out w = [] ->
  reported_proto float_text bd G w (full_name nss base []) help KCounter (map fst l)
    (fun g pm => exists ls, group_shown heck s g ls /\ counter_shown float_text ls (fold_right N.add 0 (given g l)) pm).
Proof. exact counter_vec_proto. Qed.
Print Assumptions C65_counters.

Example C65_counters_case : exists v' r, run_calls (ex_world_at 0) ex_counter_calls (ex_fresh N) = Done v' /\
  family_content [] (str "hits") (Some (str "all hits"))
    (vec_family (derived_lgset Debug) N (w_iter (ex_world_at 0)) (group_visit ex_heck ex_request_set) KCounter MCounter v') = Some r /\
  group_families [] (ex_proto_group "hits" KCounter MCounter v') ([] ++ r :: [ex_up_family]) /\
  Forall rf_ok ([] ++ [ex_up_family]) /\ Forall rf_bits_ok ([] ++ [ex_up_family]) /\ ~ misleading ([] ++ r :: [ex_up_family]) /\
  (forall g, fold_right N.add 0 (given g ex_counts) < 2 ^ 64) /\
  ex_proto_read (ex_proto_group "hits" KCounter MCounter v') =
    Some [ (Some (str "hits"), [(Some (Some (f_of_Z 1)), None); (Some (Some (f_of_Z 7)), None)]);
           (Some (str "up"), [(None, Some (Some (f_of_Z 1)))]) ].
Proof.
  exists (ex_called 0 ex_counter_calls (ex_fresh N)). eexists. split; [vm_refl|]. split; [vm_compute; reflexivity|].
  split; [apply ex_proto_group_families; vm_refl|]. split; [exact (proj1 ex_up_family_ok)|]. split; [exact (proj2 ex_up_family_ok)|].
  split; [apply not_misleading_two; vm_compute; discriminate|]. split; [exact ex_counts_below|vm_refl].
Qed.

(** Gauges: the exact result of the calls in order, as long as it never leaves
    the range of an i64, as the nearest double. *)
Theorem C65_gauges : forall heck float_text bd (W : world (derived_lgset bd) Z), world_ok W -> w_default W = 0%Z ->
  forall p s v v' (l : list (group_val * gauge_op)), constructed W p s v -> sound_set s ->
  Forall (well_shaped s) (map fst l) ->
  run_calls W (map (fun q => @gauge_vec_call (derived_lgset bd) (fst q) (snd q)) l) v = Done v' -> l <> [] ->
  (forall g ys zs, given g l = ys ++ zs -> (- 2 ^ 63 <= fold_left on_integer ys 0 < 2 ^ 63)%Z) ->
  forall G nss base help r pre post w,
  family_content nss base help (vec_family (derived_lgset bd) Z (w_iter W) (group_visit heck s) KGauge MGauge v') = Some r ->
  group_families [] G (pre ++ r :: post) -> Forall rf_ok (pre ++ post) -> Forall rf_bits_ok (pre ++ post) ->
  ~ misleading (pre ++ r :: post) -> reliable w -> w_out w = [] ->
  reported_proto float_text bd G w (full_name nss base []) help KGauge (map fst l)
    (fun g pm => exists ls, group_shown heck s g ls /\ gauge_shown float_text ls (fold_left on_integer (given g l) 0%Z) pm).
Proof. exact gauge_vec_proto. Qed.
Print Assumptions C65_gauges.

Example C65_gauges_case : exists v' r,
  run_calls (ex_world_at 0%Z) (map (fun q => @gauge_vec_call (derived_lgset Debug) (fst q) (snd q)) ex_gauges) (ex_fresh Z) = Done v' /\
  family_content [] (str "load") (Some (str "all hits"))
    (vec_family (derived_lgset Debug) Z (w_iter (ex_world_at 0%Z)) (group_visit ex_heck ex_request_set) KGauge MGauge v') = Some r /\
  group_families [] (ex_proto_group "load" KGauge MGauge v') ([] ++ r :: [ex_up_family]) /\ ~ misleading ([] ++ r :: [ex_up_family]) /\
  ex_proto_read (ex_proto_group "load" KGauge MGauge v') =
    Some [ (Some (str "load"), [(None, Some (Some (f_of_Z 7))); (None, Some (Some (f_of_Z (-1))))]);
           (Some (str "up"), [(None, Some (Some (f_of_Z 1)))]) ].
Proof.
  exists (ex_called 0%Z (map (fun q => @gauge_vec_call (derived_lgset Debug) (fst q) (snd q)) ex_gauges) (ex_fresh Z)). eexists.
  split; [vm_refl|]. split; [vm_compute; reflexivity|]. split; [apply ex_proto_group_families; vm_refl|].
  split; [apply not_misleading_two; vm_compute; discriminate|vm_refl].
Qed.

(** Float gauges: the bits of the result of the calls in order. *)
Theorem C65_float_gauges : forall heck float_text bd (W : world (derived_lgset bd) N), world_ok W -> w_default W = 0 ->
  forall p s v v' (l : list (group_val * fgauge_op)), constructed W p s v -> sound_set s ->
  Forall (well_shaped s) (map fst l) ->
  run_calls W (map (fun q => @float_gauge_vec_call (derived_lgset bd) (fst q) (snd q)) l) v = Done v' -> l <> [] ->
  (forall g y, In (g, FSet y) l -> y < 2 ^ 64) ->
  forall G nss base help r pre post w,
  family_content nss base help (vec_family (derived_lgset bd) N (w_iter W) (group_visit heck s) KFloatGauge MFloatGauge v') = Some r ->
  group_families [] G (pre ++ r :: post) -> Forall rf_ok (pre ++ post) -> Forall rf_bits_ok (pre ++ post) ->
  ~ misleading (pre ++ r :: post) -> reliable w -> w_out w = [] ->
  reported_proto float_text bd G w (full_name nss base []) help KFloatGauge (map fst l)
    (fun g pm => exists ls, group_shown heck s g ls /\ float_gauge_shown float_text ls (fold_left on_float (given g l) 0) pm).
Proof. exact float_gauge_vec_proto. Qed.
Print Assumptions C65_float_gauges.

Example C65_float_gauges_case : exists v' r,
  run_calls (ex_world_at 0) (map (fun q => @float_gauge_vec_call (derived_lgset Debug) (fst q) (snd q)) ex_float_gauges) (ex_fresh N) = Done v' /\
  family_content [] (str "load") (Some (str "all hits"))
    (vec_family (derived_lgset Debug) N (w_iter (ex_world_at 0)) (group_visit ex_heck ex_request_set) KFloatGauge MFloatGauge v') = Some r /\
  group_families [] (ex_proto_group "load" KFloatGauge MFloatGauge v') ([] ++ r :: [ex_up_family]) /\ ~ misleading ([] ++ r :: [ex_up_family]) /\
  ex_proto_read (ex_proto_group "load" KFloatGauge MFloatGauge v') =
    Some [ (Some (str "load"), [(None, Some (Some f_half)); (None, Some (Some f_1_5))]);
           (Some (str "up"), [(None, Some (Some (f_of_Z 1)))]) ].
Proof.
  exists (ex_called 0 (map (fun q => @float_gauge_vec_call (derived_lgset Debug) (fst q) (snd q)) ex_float_gauges) (ex_fresh N)). eexists.
  split; [vm_refl|]. split; [vm_compute; reflexivity|]. split; [apply ex_proto_group_families; vm_refl|].
  split; [apply not_misleading_two; vm_compute; discriminate|vm_refl].
Qed.
