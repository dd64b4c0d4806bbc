(** Groups used in the examples of [P_ProtoEnd]. *)
From Coq Require Import String List NArith ZArith Bool Lia.
From Verif Require Import Base Writer NameModel NameSpec LabelModel LabelSpec VecModel VecSpec FloatModel EncoderModel FamilyModel
  TextModel TextSpec TrimProofs EncoderSpec MetricModel MetricSpec MetricExamples ScrapeSpec ScrapeExamples TextExamples CallModel EndSpec EndExamples
  ProtoModel ProtoSpec.
Import ListNotations.
Local Open Scope N_scope.

(** A documented vec and an undocumented gauge. *)
Definition ex_proto_group {M} (name : string) (k : kind) (read : M -> metric) (v : metric_vec (derived_lgset Debug) M) : group :=
  GStruct (FieldMetric (str name) None [str " all hits"]
    (vec_family (derived_lgset Debug) M (fun t => rev t) (group_visit ex_heck ex_request_set) k read v)
    (FieldMetric (str "up") None [] (FamMetric (MGauge 1)) FieldsNil)).
Definition ex_up_family : rfamily :=
  {| rf_namespaces := []; rf_base := str "up"; rf_help := None; rf_kind := Some KGauge; rf_samples := [([], MGauge 1)] |}.

Lemma ex_up_family_ok : Forall rf_ok [ex_up_family] /\ Forall rf_bits_ok [ex_up_family].
Proof.
  split; constructor; try constructor; try discriminate; repeat constructor.
Qed.

Lemma ex_proto_group_families : forall M name k read (v : metric_vec (derived_lgset Debug) M) r,
  family_content [] (str name) (Some (str "all hits"))
    (vec_family (derived_lgset Debug) M (fun t => rev t) (group_visit ex_heck ex_request_set) k read v) = Some r ->
  group_families [] (ex_proto_group name k read v) ([] ++ r :: [ex_up_family]).
Proof.
  intros M name k read v r E. apply GF_struct.
  apply (FF_documented _ (str name) None _ (str "all hits")); [discriminate|exact (trim_trimmed _)|exact E|].
  apply (FF_undocumented _ (str "up") None); [reflexivity|constructor].
Qed.

Lemma not_misleading_two : forall r, rf_samples r <> [] -> ~ misleading ([] ++ r :: [ex_up_family]).
Proof.
  intros r N (pre & a & mid & b & post & E & _ & EA & _). unfold empty in EA.
  destruct pre as [|x [|y pre]].
  - injection E as <- _. contradiction.
  - injection E as _ <- _. discriminate.
  - injection E as _ _ E. destruct pre; discriminate.
Qed.

Lemma ex_counts_below : forall g, fold_right N.add 0 (given g ex_counts) < 2 ^ 64.
Proof. intros g. eapply N.lt_trans; [apply ex_counts_small|reflexivity]. Qed.

(** The names and values read back from a scrape. *)
Definition ex_proto_read (g : group) :=
  option_map (map (fun p => (pf_name p, map (fun m => (pm_counter m, pm_gauge m)) (pf_metrics p))))
    (read_stream (w_out (pe_writer (fst (proto_scrapes ex_ryu Debug [g] (proto_new (good_writer []))))))).
