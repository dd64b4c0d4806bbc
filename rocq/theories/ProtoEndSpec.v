(** From calls on a metric vec to the messages of a protobuf scrape. *)
From Coq Require Import String List NArith ZArith Bool.
From Verif Require Import Base Writer NameSpec LabelModel LabelSpec FloatModel FloatOrder EncoderModel TextSpec EncoderSpec MetricSpec MetricProofs ProtoModel ProtoSpec.
Import ListNotations.
Local Open Scope N_scope.

(** Scraping [G] in the protobuf format gives a stream with a family [name] with
    this help text and kind, with one metric for each of [groups] and no other;
    [shows] says what it is. *)
Definition reported_proto (float_text : f64 -> bytes) (bd : build) (G : group) (w : writer) (name : bytes)
    (help : option bytes) (k : kind) (groups : list group_val) (shows : group_val -> pmetric -> Prop) : Prop :=
  exists st, proto_scrapes float_text bd [G] (proto_new w) = (st, ROk) /\
    (nlen (w_out (pe_writer st)) < 2 ^ 64 ->
     exists before p behind gs, read_stream (w_out (pe_writer st)) = Some (before ++ p :: behind) /\
       pf_name p = Some name /\ pf_help p = help /\ pf_type p = Some (kind_number k) /\
       NoDup gs /\ (forall g, In g gs <-> In g groups) /\ Forall2 shows gs (pf_metrics p)).

(** A double for an integer: the integer itself up to 2^53, within one part in
    2^53 above ([fv x] is [x * 2^SC], an integer). *)
Definition int_double (z : Z) (x : f64) : Prop :=
  f_is_finite x = true /\ (2 ^ 53 * Z.abs (fv x - z * 2 ^ SC) <= Z.abs z * 2 ^ SC)%Z /\
  ((- 2 ^ 53 <= z <= 2 ^ 53)%Z -> double_is z x).

Definition counter_shown (float_text : f64 -> bytes) (ls : labels) (c : N) (m : pmetric) : Prop :=
  Forall2 (pair_shows float_text) ls (pm_labels m) /\
  pm_gauge m = None /\ exists x, pm_counter m = Some (Some x) /\ int_double (Z.of_N c) x.
Definition gauge_shown (float_text : f64 -> bytes) (ls : labels) (z : Z) (m : pmetric) : Prop :=
  Forall2 (pair_shows float_text) ls (pm_labels m) /\
  pm_counter m = None /\ exists x, pm_gauge m = Some (Some x) /\ int_double z x.
Definition float_gauge_shown (float_text : f64 -> bytes) (ls : labels) (x : f64) (m : pmetric) : Prop :=
  Forall2 (pair_shows float_text) ls (pm_labels m) /\
  pm_counter m = None /\ pm_gauge m = Some (Some x).
