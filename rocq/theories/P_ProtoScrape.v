(** Properties C69 and C70: what the reader of a whole protobuf scrape sees, and
    that both formats report the same.  [ryu] is the float formatter. *)
From Coq Require Import String List NArith ZArith Bool Permutation.
From Verif Require Import Base Writer NameModel NameSpec LabelModel FloatModel EncoderModel TextModel TextSpec EncoderSpec
  ScrapeSpec ScrapeExamples TextExamples TextExampleProofs ProtoModel ProtoSpec ProtoExamples ProtoExampleProofs
  ProtoScrapeSpec ProtoScrapeProofs ProtoScrapeAgree ProtoScrapeExamples.
Import ListNotations.
Local Open Scope N_scope.

(** C69: in a protobuf scrape of families with different names no message and no
    series occurs twice, no label occurs twice in a metric, and every metric has
    exactly the value the type of its message asks for. *)
Theorem C69_well_formed : forall ryu bd g fs w, group_families [] g fs -> Forall rf_ok fs -> Forall rf_bits_ok fs -> ~ misleading fs ->
  reliable w -> w_out w = [] ->
  NoDup (map fst (named_families [] g)) -> Forall (fun p => family_ok ryu (snd p)) (named_families [] g) ->
  exists s, proto_scrapes ryu bd [g] (proto_new w) = (s, ROk) /\
    (nlen (w_out (pe_writer s)) < 2 ^ 64 ->
     exists ps, read_stream (w_out (pe_writer s)) = Some ps /\
       families_once ps /\ metrics_once ps /\ metric_labels_once ps /\ values_typed ps).
Proof. exact proto_well_formed. Qed.
Print Assumptions C69_well_formed.

Example C69_case : group_families [] ex_pgroup ex_pfamilies /\ Forall rf_ok ex_pfamilies /\ Forall rf_bits_ok ex_pfamilies /\
  ~ misleading ex_pfamilies /\ NoDup (map fst (named_families [] ex_pgroup)) /\
  Forall (fun p => family_ok ex_ryu (snd p)) (named_families [] ex_pgroup).
Proof.
  split; [exact ex_pgroup_families|]. destruct ex_pfamilies_ok as (A & B & C). split; [exact A|]. split; [exact B|]. split; [exact C|].
  split; [exact ex_pgroup_names|exact ex_pgroup_ok].
Qed.

(** Otherwise: flattened groups with a common metric, variants shown by the same
    text, the composition of groups with a common label. *)
Theorem C69_flatten_refuted : exists ps, read_scrape ex_flattened = Some ps /\ ~ families_once ps.
Proof. exact proto_flattened_clash. Qed.
Print Assumptions C69_flatten_refuted.
Theorem C69_same_text_refuted : exists ps, read_scrape ex_same = Some ps /\ ~ metrics_once ps.
Proof. exact proto_same_clash. Qed.
Print Assumptions C69_same_text_refuted.
Theorem C69_composed_refuted : exists ps, read_scrape ex_composed = Some ps /\ ~ metric_labels_once ps.
Proof. exact proto_composed_clash. Qed.
Print Assumptions C69_composed_refuted.

(** C70: a text scrape and a protobuf scrape of the same group have the same
    samples in the same order, with the same names, labels and values (integers
    as doubles), and say the same of the types and help texts of the families. *)
Theorem C70_formats_agree : forall ryu bd bd' g fs w w', float_text_ok ryu -> group_families [] g fs ->
  Forall event_ok (concat (map rf_events fs)) -> Forall rf_ok fs -> Forall rf_bits_ok fs -> ~ misleading fs ->
  reliable w -> reliable w' -> w_out w = [] -> w_out w' = [] ->
  exists s items s', collect_group (text_encoder ryu bd) g (text_new w) = (s, ROk) /\ parse (w_out (te_writer s)) = Some items /\
    proto_scrapes ryu bd' [g] (proto_new w') = (s', ROk) /\
    (nlen (w_out (pe_writer s')) < 2 ^ 64 ->
     exists ps, read_stream (w_out (pe_writer s')) = Some ps /\ samples_agree ryu items ps /\
       (NoDup (map fst (named_families [] g)) -> headers_agree items ps)).
Proof. exact formats_agree. Qed.
Print Assumptions C70_formats_agree.

Example C70_case : float_text_ok ex_ryu /\ group_families [] ex_pgroup ex_pfamilies /\
  Forall event_ok (concat (map rf_events ex_pfamilies)) /\ Forall rf_ok ex_pfamilies /\ Forall rf_bits_ok ex_pfamilies /\
  ~ misleading ex_pfamilies /\ NoDup (map fst (named_families [] ex_pgroup)).
Proof.
  split; [exact ex_ryu_ok|]. split; [exact ex_pgroup_families|]. split; [exact ex_pgroup_valid|].
  destruct ex_pfamilies_ok as (A & B & C). split; [exact A|]. split; [exact B|]. split; [exact C|exact ex_pgroup_names].
Qed.
Example C70_output : exists items ps,
  parse (w_out (te_writer (fst (collect_group (text_encoder ex_ryu Debug) ex_pgroup (text_new (good_writer [])))))) = Some items /\
  read_scrape ex_pgroup = Some ps /\
  map pf_name ps = [Some (str "errors_total"); Some (str "http_open"); Some (str "load")] /\
  length (filter sample_line items) = 4%nat /\ In (Help (str "errors_total") (str "number of errors")) items /\
  In (Type_ (str "load") (str "gauge")) items /\ In (Type_ (str "unused") (str "gauge")) items.
Proof. exact ex_pgroup_agrees. Qed.

(** For the sequences of families of C47 they differ. *)
Theorem C70_misleading_refuted : exists items ps,
  parse (w_out (te_writer (fst (collect_group (text_encoder ex_ryu Debug) ex_pmisleading (text_new (good_writer [])))))) = Some items /\
  read_scrape ex_pmisleading = Some ps /\ ~ samples_agree ex_ryu items ps.
Proof. exact formats_differ. Qed.
Print Assumptions C70_misleading_refuted.
