(** Encoders, metric families and metric groups: core/src/metric/group.rs,
    core/src/metric.rs:406-471 and the code generated by derive(MetricGroup). *)
From Coq Require Import String List NArith ZArith Bool.
From Verif Require Import Base Writer NameModel LabelModel FloatModel.
Import ListNotations.
Local Open Scope N_scope.

(** The metric types that have encodings: [CounterState] (counter.rs:14),
    [GaugeState], [FloatGaugeState] (gauge.rs), [HistogramState]
    (histogram.rs:62-67). *)
Inductive kind := KCounter | KGauge | KFloatGauge | KHistogram.

(** The value of a metric as an encoder reads it, together with the metadata it
    is given: a counter's u64, a gauge's i64, a float gauge's f64; for a
    histogram the thresholds and the triple returned by
    [HistogramStateInner::sample] (histogram.rs:51-59). *)
Inductive metric :=
| MCounter (count : N)
| MGauge (count : Z)
| MFloatGauge (bits : f64)
| MHistogram (thresholds : list f64) (buckets : list N) (inf : N) (sum : f64).

Definition kind_of (m : metric) : kind :=
  match m with
  | MCounter _ => KCounter
  | MGauge _ => KGauge
  | MFloatGauge _ => KFloatGauge
  | MHistogram _ _ _ _ => KHistogram
  end.

(** A label group as an encoder sees it: the sequence of [write_value] calls
    made by [LabelGroup::visit_values] (label/group.rs:5-23; NoLabels 56-61). *)
Definition labels := list (bytes * lvalue).

(** [ComposedGroup::visit_values] (label/group.rs:120-125): first part first. *)
Definition compose_labels (a b : labels) : labels := a ++ b.

(** The traits [Encoding] (group.rs:20-26) and [MetricEncoding] (metric.rs:406-417)
    for one encoder: state, [write_help], and per metric type [write_type] and
    [collect_into]. *)
Record encoder (S : Type) := {
  e_help : mname -> bytes -> io S;
  e_type : kind -> mname -> io S;
  e_collect : metric -> labels -> mname -> io S }.
Arguments e_help {S}.
Arguments e_type {S}.
Arguments e_collect {S}.

(** [WithNamespace<E>] as an encoder: group.rs:92-103 [Encoding], 105-132
    [MetricEncoding].  [&mut E] (group.rs:28-33, 134-147) passes everything on
    unchanged and is not represented. *)
Definition with_namespace {S} (ns : bytes) (e : encoder S) : encoder S := {|
  e_help := fun n h => e_help e (NNamespace ns n) h;
  e_type := fun k n => e_type e k (NNamespace ns n);
  e_collect := fun m ls n => e_collect e m ls (NNamespace ns n) |}.

(** Implementations of [MetricFamilyEncoding]: [Metric<M>], [MetricVec<M, L>]
    and [Option<_>].  A vec is represented by what its collection loop meets:
    the (decoded label group, metric) pairs in the order of metric.rs:448-468
    ([VecModel.vec_samples], which panics if a decode panics), the label groups
    already turned into their [write_value] calls. *)
Inductive family :=
| FamMetric (m : metric)
| FamVec (k : kind) (samples : outcome (list (labels * metric)))
| FamSome (f : family)
| FamNone.

(** metric.rs:448-468: the body of the collection loop, [?] after each call *)
Fixpoint collect_samples {S} (e : encoder S) (n : mname) (l : list (labels * metric)) : io S :=
  match l with
  | [] => ret_ok
  | (g, m) :: rest => e_collect e m g n ;;? collect_samples e n rest
  end.

(** [MetricFamilyEncoding::collect_family_into]: metric.rs:425-432 (Option),
    434-441 (Metric), 443-471 (MetricVec). *)
Fixpoint collect_family {S} (e : encoder S) (n : mname) (f : family) : io S :=
  match f with
  | FamMetric m => e_type e (kind_of m) n ;;? e_collect e m [] n
  | FamVec k samples =>
    e_type e k n ;;?
    match samples with
    | Done l => collect_samples e n l
    | Panic => fun s => (s, RPanic)
    end
  | FamSome f => collect_family e n f
  | FamNone => ret_ok
  end.

(** The doc attribute strings of a field are concatenated
    (derive/src/metric_group/attr.rs:163-172); [None] when there are none. *)
Definition field_docs (docs : list bytes) : option bytes :=
  match docs with [] => None | _ => Some (concat docs) end.

(** The characters [char::is_whitespace] accepts, in UTF-8: tab, line feed,
    vertical tab, form feed, carriage return, space, U+0085, U+00A0, U+1680,
    U+2000 to U+200A, U+2028, U+2029, U+202F, U+205F, U+3000. *)
Definition white_chars : list bytes :=
  [ [9]; [10]; [11]; [12]; [13]; [32]; [194; 133]; [194; 160]; [225; 154; 128];
    [226; 128; 128]; [226; 128; 129]; [226; 128; 130]; [226; 128; 131]; [226; 128; 132]; [226; 128; 133];
    [226; 128; 134]; [226; 128; 135]; [226; 128; 136]; [226; 128; 137]; [226; 128; 138];
    [226; 128; 168]; [226; 128; 169]; [226; 128; 175]; [226; 129; 159]; [227; 128; 128] ].

(* str::trim, used in derive/src/metric_group/to_tokens.rs:59 *)
Fixpoint strip_prefix (p s : bytes) : option bytes :=
  match p, s with
  | [], _ => Some s
  | x :: p', y :: s' => if x =? y then strip_prefix p' s' else None
  | _ :: _, [] => None
  end.
(** What is left behind the first of the patterns that fits. *)
(* str::trim, used in derive/src/metric_group/to_tokens.rs:59 *)
Fixpoint strip_one (ps : list bytes) (s : bytes) : option bytes :=
  match ps with
  | [] => None
  | p :: ps' => match strip_prefix p s with Some r => Some r | None => strip_one ps' s end
  end.
(* str::trim, used in derive/src/metric_group/to_tokens.rs:59 *)
Fixpoint strip_all (ps : list bytes) (fuel : nat) (s : bytes) : bytes :=
  match fuel with
  | O => s
  | Datatypes.S n => match strip_one ps s with Some r => strip_all ps n r | None => s end
  end.
(** [str::trim] (to_tokens.rs:59): characters off the front, then off the back.
    The bytes of a [str] are UTF-8, in which a character cannot be found inside
    others. *)
Definition trim (s : bytes) : bytes :=
  let t := strip_all white_chars (length s) s in
  rev (strip_all (map (@rev N) white_chars) (length t) (rev t)).

(** Values implementing [MetricGroup]: derived structs, [ComposedGroup]
    (group.rs:51-62), [WithNamespace<G>] (64-75), [Option<G>] (77-84).  [&G]
    (41-49) and [Arc<G>] (86-90) pass the call on.  A struct field is a metric
    family, a flattened group or a group with a namespace
    (derive/src/metric_group/attr.rs:57-61). *)
Inductive group :=
| GStruct (fs : gfields)
| GComposed (a b : group)
| GNamespace (ns : bytes) (g : group)
| GSome (g : group)
| GNone
with gfields :=
| FieldsNil
| FieldMetric (name : bytes) (rename : option bytes) (docs : list bytes) (f : family) (rest : gfields)
| FieldGroup (g : group) (rest : gfields)
| FieldNamespace (ns : bytes) (g : group) (rest : gfields).

(** derive/src/metric_group/to_tokens.rs:55: rename or field name *)
Definition metric_field_name (name : bytes) (rename : option bytes) : bytes :=
  match rename with Some r => r | None => name end.

(** [MetricGroup::collect_group_into]: group.rs:51-84 and the generated code of
    derive/src/metric_group/to_tokens.rs:51-95.  Names are checked by
    [MetricName::from_str] at compile time (to_tokens.rs:66); the namespace of a
    field is checked by [WithNamespace::new] (to_tokens.rs:80, name.rs:187-192)
    during every collection.  A [WithNamespace<G>] value was checked when it was
    made. *)
Fixpoint collect_group {S} (e : encoder S) (g : group) : io S :=
  match g with
  | GStruct fs => collect_fields e fs
  | GComposed a b => collect_group e a ;;? collect_group e b
  | GNamespace ns g => collect_group (with_namespace ns e) g
  | GSome g => collect_group e g
  | GNone => ret_ok
  end
with collect_fields {S} (e : encoder S) (fs : gfields) : io S :=
  match fs with
  | FieldsNil => ret_ok
  | FieldMetric name rename docs f rest =>
    let n := NBase (metric_field_name name rename) in
    match field_docs docs with
    | Some d => e_help e n (trim d)
    | None => ret_ok
    end ;;?
    collect_family e n f ;;?
    collect_fields e rest
  | FieldGroup g rest => collect_group e g ;;? collect_fields e rest
  | FieldNamespace ns g rest =>
    match metric_name_from_str ns with
    | Done ns' => collect_group (with_namespace ns' e) g
    | Panic => fun s => (s, RPanic)
    end ;;? collect_fields e rest
  end.
