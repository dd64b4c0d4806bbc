(** Protobuf scrapes used as examples. *)
From Coq Require Import String List NArith ZArith Bool Lia.
From Verif Require Import Base Writer NameModel NameSpec NameProofs FloatModel LabelModel EncoderModel TextSpec TextExamples EncoderSpec TrimProofs
  ScrapeExamples ProtoModel ProtoSpec ProtoEndExamples ConcScrapeExamples ConcScrapeSpec ConcScrapeModel ConcProtoSpec.
Import ListNotations.
Local Open Scope N_scope.

(** The group of [ex_scrape]. *)
Definition ex_pscrape (F : family) : pscrape :=
  {| pc_group := sc_group (ex_scrape F); pc_before := [ex_up_family]; pc_behind := []; pc_writer := good_writer [] |}.

Lemma ex_pscrape_of : forall G R (visit : G -> labels) k (read : R -> metric) l,
  pscrape_of [str "app"%string] (str "hits"%string) (Some (str "Requests."%string)) (collected_family visit k read l) (ex_pscrape (collected_family visit k read l)).
Proof.
  intros G R visit k read l. eexists. split; [reflexivity|]. split; [|split; [|split; [|split; [|split]]]].
  - apply GF_struct. apply (FF_undocumented [] (str "up"%string) None); [reflexivity|].
    apply (FF_ns [] (str "app"%string) _ FieldsNil [_] []); [now apply valid_metric_nameb_spec| |constructor].
    apply GF_struct. apply (FF_documented _ (str "hits"%string) None _ (str "Requests."%string)); [discriminate|exact (trim_trimmed (str " Requests."%string))|reflexivity|constructor].
  - exact (proj1 ex_up_family_ok).
  - exact (proj2 ex_up_family_ok).
  - intros (pre & a & mid & b & post & E & DA & _). destruct pre as [|x [|y pre]].
    + injection E as <- _. now apply DA.
    + injection E as _ <- E. destruct mid; discriminate E.
    + injection E as _ _ E. destruct pre; discriminate E.
  - intros n. reflexivity.
  - reflexivity.
Qed.

(** Name, help and values of each message, with the texts of the labels. *)
Definition ex_pscrape_read (F : family) :=
  option_map (map (fun p => (pf_name p, pf_help p, map (fun m => (map lp_value (pm_labels m), pm_counter m, pm_gauge m)) (pf_metrics p))))
    (read_stream (w_out (pe_writer (fst (proto_scrapes ex_ryu Debug [pc_group (ex_pscrape F)] (proto_new (good_writer []))))))).
