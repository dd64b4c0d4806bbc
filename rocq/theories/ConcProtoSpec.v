(** A family in the stream of a protobuf scrape. *)
From Coq Require Import String List NArith ZArith Bool.
From Verif Require Import Base Writer NameSpec LabelModel FloatModel FloatOrder EncoderModel TextSpec EncoderSpec MetricSpec MetricProofs ProtoModel ProtoSpec ProtoScrapeSpec.
Import ListNotations.
Local Open Scope N_scope.

(** A scrape: the group scraped, its families before the one of interest and those
    after, the writer. *)
Record pscrape := { pc_group : group; pc_before : list rfamily; pc_behind : list rfamily; pc_writer : writer }.

(** The scrape is of a group with the family [F] under the name [base] in the
    namespaces [nss] with the help text [help]; there are no histograms, none of the
    sequences of C47, and the writer, empty at first, does not fail. *)
Definition pscrape_of (nss : list bytes) (base : bytes) (help : option bytes) (F : family) (sc : pscrape) : Prop :=
  exists r, family_content nss base help F = Some r /\ group_families [] (pc_group sc) (pc_before sc ++ r :: pc_behind sc) /\
    Forall rf_ok (pc_before sc ++ pc_behind sc) /\ Forall rf_bits_ok (pc_before sc ++ pc_behind sc) /\
    ~ misleading (pc_before sc ++ r :: pc_behind sc) /\ reliable (pc_writer sc) /\ w_out (pc_writer sc) = [].

(** It succeeds and writes [out]. *)
Definition pscrape_writes (float_text : f64 -> bytes) (bd : build) (sc : pscrape) (out : bytes) : Prop :=
  exists st, proto_scrapes float_text bd [pc_group sc] (proto_new (pc_writer sc)) = (st, ROk) /\ w_out (pe_writer st) = out.

(** The stream has the message [p] between the messages of the other families. *)
Definition stream_has (float_text : f64 -> bytes) (sc : pscrape) (out : bytes) (p : pfamily) : Prop :=
  exists before behind, read_stream out = Some (before ++ p :: behind) /\
    Forall2 (family_shows float_text (fun z x => x = f_of_Z z)) (with_samples (pc_before sc)) before /\
    Forall2 (family_shows float_text (fun z x => x = f_of_Z z)) (with_samples (pc_behind sc)) behind.

(** The message has a metric for each of [gs]. *)
Definition message {G} (name : bytes) (help : option bytes) (k : kind) (about : G -> pmetric -> Prop) (gs : list G) (p : pfamily) : Prop :=
  pf_name p = Some name /\ pf_help p = help /\ pf_type p = Some (kind_number k) /\ Forall2 about gs (pf_metrics p).

(** The same labels: names, and texts that say the same. *)
Definition same_pairs (a b : list label_pair) : Prop :=
  Forall2 (fun p q => lp_name p = lp_name q /\ exists t u, lp_value p = Some t /\ lp_value q = Some u /\ same_value t u) a b.

(** Every counter of the first message is in the second, its value at least what it
    was ([fv x] is [x * 2^SC]). *)
Definition counters_rise (first second : pfamily) : Prop :=
  pf_name second = pf_name first /\
  forall m, In m (pf_metrics first) -> exists m' x x', In m' (pf_metrics second) /\ same_pairs (pm_labels m) (pm_labels m') /\
    pm_counter m = Some (Some x) /\ pm_counter m' = Some (Some x') /\ f_is_finite x = true /\ f_is_finite x' = true /\ (fv x <= fv x')%Z.
