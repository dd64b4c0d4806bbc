(** Scrapes used as examples. *)
From Coq Require Import String List NArith ZArith Bool Lia.
From Verif Require Import Base Writer NameModel NameSpec NameProofs FloatModel MetricModel MetricExamples LabelModel EncoderModel TextModel TextSpec TextExamples EncoderSpec EncoderProofs TrimProofs
  ScrapeExamples ConcModel ConcLabelModel ConcLabelExamples ConcScrapeModel ConcScrapeSpec.
Import ListNotations.

(** A documented vec in a namespace, after a gauge. *)
Definition ex_scrape (F : family) : scrape :=
  {| sc_group := GStruct (FieldMetric (str "up") None [] (FamMetric (MGauge 1)) (FieldNamespace (str "app") (GStruct (FieldMetric (str "hits") None [str " Requests."] F FieldsNil)) FieldsNil));
     sc_before := [EvType [] (str "up") KGauge; EvSample [] (str "up") [] (MGauge 1); EvHelp [str "app"] (str "hits") (str "Requests.")];
     sc_behind := []; sc_writer := good_writer [] |}%string.

Lemma ex_scrape_of : forall F, scrape_of [str "app"%string] (str "hits"%string) F (ex_scrape F).
Proof.
  intros F. split; [|split; [|split]].
  - apply GE_struct. apply (FE_undocumented [] (str "up"%string) None (FamMetric (MGauge 1))).
    pose proof (FE_documented [str "app"] (str "hits") None [str " Requests."] (str "Requests.") F FieldsNil [])%string as D.
    specialize (D ltac:(discriminate) (trim_trimmed (str " Requests."%string)) (FE_nil _)). rewrite app_nil_r in D.
    apply (FE_ns [] (str "app"%string) _ FieldsNil (_ :: _) []); [now apply valid_metric_nameb_spec| |apply FE_nil].
    apply GE_struct. exact D.
  - assert (V : forall n, valid_metric_nameb n = true -> valid_metric_name n) by (intros n; apply valid_metric_nameb_spec).
    constructor; [|constructor; [|constructor; [|constructor]]].
    + constructor; [now apply V|constructor].
    + split; [constructor; [now apply V|constructor]|]. split; [constructor|]. cbn. lia.
    + split; [constructor; [now apply V|constructor; [now apply V|constructor]]|].
      split; intros H; cbn in H; repeat (destruct H as [H|H]; [discriminate H|]); exact H.
  - repeat constructor; now apply valid_metric_nameb_spec.
  - intros k. reflexivity.
Qed.

Definition ex_scrape_text (F : family) : bytes :=
  w_out (te_writer (fst (collect_group (text_encoder ex_ryu Debug) (sc_group (ex_scrape F)) (text_new (good_writer []))))).
Definition ex_counter_family (l : list (group_val * N)) : family := collected_family (group_visit ex_heck ex_lfields) KCounter MCounter l.
Definition ex_hist_family (l : list (group_val * hist_res)) : family := collected_family (group_visit ex_heck ex_lfields) KHistogram (read_histogram [f_one; f_two]) l.
Definition ex_lines (l : list string) : bytes := concat (map (fun s => str s ++ [10%N]) l).

(** Label values of the groups of ConcDenseCallExamples.v, whose fields are named [1] and [3]. *)
Definition ex_dense_visit (g : group_val) : labels :=
  map (fun p => (if beqb (fst p) [1%N] then str "verb"%string else str "path"%string, LStr (snd p))) g.
Lemma ex_dense_names : forall g, Forall (fun l => valid_label_name (fst l)) (ex_dense_visit g).
Proof. intros g. apply Forall_map, Forall_forall. intros [n v] _. cbn [fst]. destruct (beqb n [1%N]); now apply valid_label_nameb_spec. Qed.
