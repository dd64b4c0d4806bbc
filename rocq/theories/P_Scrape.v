(** Properties C58-C60: what the reader of a whole scrape sees. *)
From Coq Require Import String List NArith ZArith Bool Permutation.
From Verif Require Import Base BaseFacts Writer NameModel NameSpec LabelModel LabelSpec LawProofs FloatModel EncoderModel FamilyModel
  TextModel TextSpec EncoderSpec VecModel VecSpec VecTheorems DeriveModel DeriveSpec DeriveStructProofs DeriveExamples
  ScrapeSpec ScrapeProofs ScrapeTheorems ScrapeVec ScrapeExamples TextExamples TextExampleProofs.
Import ListNotations.
Local Open Scope N_scope.

(** C58: the labels of a group are its fields in declaration order, under
    their names and with the values as the enum and set types show them. *)
Theorem C58_visit_exact : forall heck s g, wf_group_set s -> member s g ->
  forall ls, group_visit heck s g = ls <-> group_shown heck s g ls.
Proof. exact visit_exact. Qed.
Print Assumptions C58_visit_exact.

Example C58_visit_case : wf_group_set ex_request_set /\ member ex_request_set (ex_request "/a" "Del" "bob") /\
  group_shown ex_heck ex_request_set (ex_request "/a" "Del" "bob")
    [(str "route", LStr (str "/a")); (str "op", LInt 7); (str "user", LStr (str "bob")); (str "agent", LStr (str "curl"))].
Proof. split; [exact ex_request_wf|]. split; [apply ex_request_member|exact ex_request_shown]. Qed.

(** Label names of a struct accepted by the macro are valid and distinct. *)
Theorem C58_label_names : forall heck shouty ident_ok attrs d l s g,
  derive_label_group shouty ident_ok attrs d = Some l -> Forall2 set_for l s ->
  NoDup (map fst (group_visit heck s g)) /\ labels_valid (group_visit heck s g).
Proof. exact derived_visit_names. Qed.
Print Assumptions C58_label_names.

Example C58_names_case : derive_label_group ex_shouty ex_ident ex_label_attrs (DataStruct ex_label_struct) = Some ex_lfields /\
  Forall2 set_for ex_lfields ex_request_set.
Proof. split; [reflexivity|exact ex_set_for]. Qed.

(** A singleton enum is a group of one label, under the name it asks for. *)
Theorem C58_singletons : forall heck F attrs vs e n,
  derive_enum attrs (@DataEnum F vs) = Some (e, Some n) -> NoDup (map vi_ident vs) ->
  In (equals "singleton" (TStr n)) (arguments "label" attrs) /\ valid_label_name n /\
  forall v, In v vs -> exists x, singleton_visit heck e n (vi_ident v) = [(n, x)] /\ variant_label heck attrs v x.
Proof. exact singleton_exact. Qed.
Print Assumptions C58_singletons.

Example C58_singleton_case : NoDup (map vi_ident ex_op_variants) /\ exists e,
  derive_enum ex_op_attrs (@DataEnum field_input ex_op_variants) = Some (e, Some (str "op")) /\
  map (fun v => singleton_visit (fun _ s => s) e (str "op") (vi_ident v)) ex_op_variants =
  [[(str "op", LStr (str "Get"))]; [(str "op", LStr (str "put"))]; [(str "op", LInt 7)]].
Proof.
  split; [vm_compute; repeat constructor; cbn; intuition discriminate|].
  eexists. split; [vm_compute; reflexivity|vm_compute; reflexivity].
Qed.

(** Composing two groups keeps the labels distinct exactly when they share none. *)
Theorem C58_composed_names : forall a b, NoDup (map fst (compose_labels a b)) <->
  NoDup (map fst a) /\ NoDup (map fst b) /\ (forall n, In n (map fst a) -> ~ In n (map fst b)).
Proof. exact composed_once. Qed.
Print Assumptions C58_composed_names.

(** Every sample line of a scrape has each label once. *)
Theorem C58_scraped_labels_once : forall float_text evs items, exposes float_text evs items ->
  (forall nss base ls m, In (EvSample nss base ls m) evs ->
     NoDup (map fst ls) /\ (metric_kind m = KHistogram -> ~ In (str "le") (map fst ls))) ->
  labels_once items.
Proof. exact scraped_labels_once. Qed.
Print Assumptions C58_scraped_labels_once.

(** Without these conditions: a label [le] of the user's on a histogram vec, and
    the composition of groups with a common label. *)
Theorem C58_le_refuted : wf_group_set ex_le_set /\ NoDup (map field_label ex_le_set) /\
  exists items, scraped ex_le items /\ ~ labels_once items.
Proof. exact le_clash. Qed.
Print Assumptions C58_le_refuted.
Theorem C58_composed_refuted : exists items, scraped ex_composed items /\ ~ labels_once items.
Proof. exact composed_clash. Qed.
Print Assumptions C58_composed_refuted.

(** C59: texts of label values; different groups of a set have different label
    sets in the text, and so no two samples of a vec are the same series. *)
Theorem C59_values_apart : forall float_text,
  (forall a b, values_apart float_text (LInt a) (LInt b) <-> a <> b) /\
  (forall a b, values_apart float_text (LStr a) (LStr b) <-> a <> b) /\
  (forall z s, values_apart float_text (LInt z) (LStr s) <-> read_int s <> Some z).
Proof. exact values_apart_exact. Qed.
Print Assumptions C59_values_apart.

Theorem C59_groups_apart : forall heck float_text s g1 g2, wf_group_set s -> NoDup (map field_label s) -> enums_apart heck s ->
  member s g1 -> member s g2 -> g1 <> g2 -> labels_apart float_text (group_visit heck s g1) (group_visit heck s g2).
Proof. exact groups_apart. Qed.
Print Assumptions C59_groups_apart.

Example C59_groups_case : wf_group_set ex_request_set /\ NoDup (map field_label ex_request_set) /\ enums_apart ex_heck ex_request_set /\
  member ex_request_set (ex_request "/a" "Del" "bob") /\ member ex_request_set (ex_request "/" "PutObject" "bob").
Proof. split; [exact ex_request_wf|]. split; [exact ex_request_labels|]. split; [exact ex_request_apart|exact ex_request_member]. Qed.

Theorem C59_composed_apart : forall float_text a1 a2 b1 b2, map fst a1 = map fst a2 -> map fst b1 = map fst b2 ->
  NoDup (map fst (compose_labels a1 b1)) -> labels_apart float_text a1 a2 \/ labels_apart float_text b1 b2 ->
  labels_apart float_text (compose_labels a1 b1) (compose_labels a2 b2).
Proof. exact composed_apart. Qed.
Print Assumptions C59_composed_apart.

Theorem C59_vec_series : forall heck float_text bd M (W : world (derived_lgset bd) M), world_ok W ->
  forall p s v ops c os, constructed W p s v -> sound_set s ->
  @typed_ops (derived_lgset bd) M well_shaped s ops -> exec W (start v) ops = Done (c, os) ->
  forall k read, (forall m, metric_kind (read m) = k /\ bounds_apart float_text (read m)) ->
  NoDup (map field_label s) -> enums_apart heck s -> (k = KHistogram -> ~ In (str "le") (map field_label s)) ->
  family_ok float_text (vec_family (derived_lgset bd) M (w_iter W) (group_visit heck s) k read (cl_vec c)).
Proof. exact vec_family_ok. Qed.
Print Assumptions C59_vec_series.

Example C59_vec_case : exists c os, world_ok ex_world /\ constructed ex_world 3 ex_set ex_vec /\ sound_set ex_set /\
  @typed_ops (derived_lgset Debug) N well_shaped ex_set ex_program /\ exec ex_world (start ex_vec) ex_program = Done (c, os) /\
  (forall m, metric_kind (MCounter m) = KCounter /\ bounds_apart ex_ryu (MCounter m)) /\
  NoDup (map field_label ex_set) /\ enums_apart ex_heck ex_set.
Proof.
  destruct ex_program_runs as (c & C & S & T & E). exists c. eexists. split; [exact ex_world_ok|]. split; [exact C|]. split; [exact S|].
  split; [exact T|]. split; [exact E|]. split; [intros m; split; [reflexivity|exact I]|].
  split; [apply nodupb_NoDup; reflexivity|apply enums_apart_check; reflexivity].
Qed.

(** Bounds of a histogram are told apart by a faithful float formatter. *)
Theorem C59_bounds_apart : forall float_text ts bs inf sum, faithful float_text -> Forall finite ts -> NoDup ts ->
  bounds_apart float_text (MHistogram ts bs inf sum).
Proof. exact thresholds_apart. Qed.
Print Assumptions C59_bounds_apart.

Example C59_bounds_case : faithful ex_ryu /\ Forall finite [4607182418800017408; 4611686018427387904] /\
  NoDup [4607182418800017408; 4611686018427387904].
Proof.
  split; [exact ex_ryu_faithful|]. split.
  - constructor; [split; [reflexivity|exact I]|]. constructor; [split; [reflexivity|exact I]|constructor].
  - constructor; [intros [E|[]]; discriminate|]. constructor; [intros []|constructor].
Qed.

(** Variants shown by the same text make two series one. *)
Theorem C59_same_text_refuted : wf_group_set ex_same_set /\ NoDup (map field_label ex_same_set) /\
  exists items, scraped ex_same items /\ ~ no_repeated_series items.
Proof. exact same_clash. Qed.
Print Assumptions C59_same_text_refuted.

(** C60: a scrape of families whose names are apart has no series twice, no
    HELP or TYPE line twice, and no label twice on a line. *)
Theorem C60_scrape_well_formed : forall float_text bd g evs w, float_text_ok float_text -> group_events [] g evs ->
  Forall event_ok evs -> reliable w -> names_apart g -> Forall (fun p => family_ok float_text (snd p)) (named_families [] g) ->
  exists s out items, collect_group (text_encoder float_text bd) g (text_new w) = (s, ROk) /\
    w_out (te_writer s) = w_out w ++ out /\ parse out = Some items /\
    no_repeated_series items /\ headers_once items /\ labels_once items.
Proof. exact scrape_well_formed. Qed.
Print Assumptions C60_scrape_well_formed.

Example C60_case : float_text_ok ex_ryu /\ group_events [] ex_scrape ex_scrape_events /\ Forall event_ok ex_scrape_events /\
  names_apart ex_scrape /\ Forall (fun p => family_ok ex_ryu (snd p)) (named_families [] ex_scrape).
Proof.
  split; [exact ex_ryu_ok|]. split; [exact ex_scrape_collects|]. split; [exact ex_scrape_valid|]. split; [exact ex_scrape_names|exact ex_scrape_families].
Qed.

(** Names are apart when they are different and none is that of a line of a
    histogram; for a derived struct without subgroups they are different. *)
Theorem C60_names_apart_iff : forall g, names_apart g <->
  NoDup (map fst (named_families [] g)) /\ suffixes_free (named_families [] g).
Proof. exact names_apart_iff. Qed.
Print Assumptions C60_names_apart_iff.

Theorem C60_flat_struct : forall shouty ident_ok attrs d lc new fs,
  derive_metric_group shouty ident_ok attrs d = Some (map fst lc, new) -> struct_of lc = Some fs -> flat fs ->
  suffixes_free (named_fields [] fs) -> names_apart (GStruct fs).
Proof. exact derived_flat_apart. Qed.
Print Assumptions C60_flat_struct.

Example C60_flat_case : derive_metric_group ex_shouty ex_ident [] (DataStruct ex_flat_struct) = Some (map fst ex_flat_contents, None) /\
  struct_of ex_flat_contents = Some ex_flat_fields /\ flat ex_flat_fields /\ suffixes_free (named_fields [] ex_flat_fields).
Proof. exact ex_flat_ok. Qed.

(** Otherwise: flattened groups with a common metric, namespaces whose names run
    into each other, a counter called like a line of a histogram. *)
Theorem C60_flatten_refuted : exists items, scraped ex_flattened items /\ ~ no_repeated_series items /\ ~ headers_once items.
Proof. exact flattened_clash. Qed.
Print Assumptions C60_flatten_refuted.
Theorem C60_namespaces_refuted : exists items, scraped ex_namespaces items /\ ~ no_repeated_series items /\ ~ headers_once items.
Proof. exact namespaces_clash. Qed.
Print Assumptions C60_namespaces_refuted.
Theorem C60_suffix_refuted : exists items, scraped ex_suffix items /\ ~ no_repeated_series items /\
  NoDup (map fst (named_families [] ex_suffix)).
Proof. exact suffix_clash. Qed.
Print Assumptions C60_suffix_refuted.
