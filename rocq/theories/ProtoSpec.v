(** The protobuf wire format and the schema of metric families, as a parser that
    knows nothing of the encoder. *)
From Coq Require Import String List NArith ZArith Bool SpecFloat.
From Verif Require Import Base NameSpec LabelModel FloatModel EncoderModel TextSpec.
Import ListNotations.
Local Open Scope N_scope.

(* ------------------------------------------------------------------ *)
(** ** Wire format *)

(** Base 128, low group first, high bit set on all bytes but the last. *)
Fixpoint read_varint_upto (n : nat) (s : bytes) : option (N * bytes) :=
  match n, s with
  | S n', b :: t =>
    if b <? 128 then Some (b, t)
    else match read_varint_upto n' t with
         | Some (v, r) => Some (b - 128 + 128 * v, r)
         | None => None
         end
  | _, _ => None
  end.
Definition read_varint : bytes -> option (N * bytes) := read_varint_upto 10.

(** The first [n] bytes and the rest. *)
Definition take (n : N) (s : bytes) : option (bytes * bytes) :=
  if nlen s <? n then None else Some (firstn (N.to_nat n) s, skipn (N.to_nat n) s).

Fixpoint le_value (s : bytes) : N :=
  match s with [] => 0 | b :: t => b + 256 * le_value t end.

(** Field contents by wire type. *)
Inductive wire := WVarint (v : N) | WFixed64 (v : N) | WBytes (b : bytes).

Definition read_field (s : bytes) : option (N * wire * bytes) :=
  match read_varint s with
  | None => None
  | Some (key, r) =>
    let tag := key / 8 in
    let wt := key mod 8 in
    if wt =? 0 then
      match read_varint r with Some (v, r') => Some (tag, WVarint v, r') | None => None end
    else if wt =? 1 then
      match take 8 r with Some (b, r') => Some (tag, WFixed64 (le_value b), r') | None => None end
    else if wt =? 2 then
      match read_varint r with
      | Some (n, r') =>
        match take n r' with Some (b, r'') => Some (tag, WBytes b, r'') | None => None end
      | None => None
      end
    else None
  end.

Fixpoint read_fields_upto (n : nat) (s : bytes) : option (list (N * wire)) :=
  match s with
  | [] => Some []
  | _ =>
    match n with
    | O => None
    | S n' =>
      match read_field s with
      | Some (f, r) => option_map (cons f) (read_fields_upto n' r)
      | None => None
      end
    end
  end.
(** Every field takes at least one byte. *)
Definition read_fields (s : bytes) : option (list (N * wire)) := read_fields_upto (length s) s.

(* ------------------------------------------------------------------ *)
(** ** Messages of io.prometheus.client *)

(** A message is read field by field; unknown fields are ignored, a later
    occurrence of a singular field replaces the earlier one, and repeated fields
    accumulate.  A field with the wrong wire type is an error. *)
Section Read.
  Context {A : Type} (field : A -> N -> wire -> option A).
  Fixpoint read_into (a : A) (fs : list (N * wire)) : option A :=
    match fs with
    | [] => Some a
    | (tag, w) :: rest =>
      match field a tag w with Some a' => read_into a' rest | None => None end
    end.
  Definition read_message (init : A) (s : bytes) : option A :=
    match read_fields s with Some fs => read_into init fs | None => None end.
End Read.

(** message LabelPair: optional string name = 1, value = 2 *)
Record label_pair := { lp_name : option bytes; lp_value : option bytes }.
Definition empty_label_pair := {| lp_name := None; lp_value := None |}.
Definition label_pair_field (a : label_pair) (tag : N) (w : wire) : option label_pair :=
  if tag =? 1 then
    match w with WBytes b => Some {| lp_name := Some b; lp_value := lp_value a |} | _ => None end
  else if tag =? 2 then
    match w with WBytes b => Some {| lp_name := lp_name a; lp_value := Some b |} | _ => None end
  else Some a.

(** messages Gauge and Counter: optional double value = 1 *)
Definition value_field (a : option f64) (tag : N) (w : wire) : option (option f64) :=
  if tag =? 1 then match w with WFixed64 v => Some (Some v) | _ => None end
  else Some a.

(** message Metric: repeated LabelPair label = 1, optional Gauge gauge = 2,
    optional Counter counter = 3 *)
Record pmetric := {
  pm_labels : list label_pair; pm_gauge : option (option f64); pm_counter : option (option f64) }.
Definition empty_pmetric := {| pm_labels := []; pm_gauge := None; pm_counter := None |}.
Definition pmetric_field (a : pmetric) (tag : N) (w : wire) : option pmetric :=
  if tag =? 1 then
    match w with
    | WBytes b =>
      option_map (fun l => {| pm_labels := pm_labels a ++ [l]; pm_gauge := pm_gauge a;
                              pm_counter := pm_counter a |})
        (read_message label_pair_field empty_label_pair b)
    | _ => None
    end
  else if tag =? 2 then
    match w with
    | WBytes b =>
      option_map (fun v => {| pm_labels := pm_labels a; pm_gauge := Some v; pm_counter := pm_counter a |})
        (read_message value_field (match pm_gauge a with Some v => v | None => None end) b)
    | _ => None
    end
  else if tag =? 3 then
    match w with
    | WBytes b =>
      option_map (fun v => {| pm_labels := pm_labels a; pm_gauge := pm_gauge a; pm_counter := Some v |})
        (read_message value_field (match pm_counter a with Some v => v | None => None end) b)
    | _ => None
    end
  else Some a.

(** message MetricFamily: optional string name = 1, help = 2, optional
    MetricType type = 3 (COUNTER 0, GAUGE 1), repeated Metric metric = 4 *)
Record pfamily := {
  pf_name : option bytes; pf_help : option bytes; pf_type : option N; pf_metrics : list pmetric }.
Definition empty_pfamily := {| pf_name := None; pf_help := None; pf_type := None; pf_metrics := [] |}.
Definition pfamily_field (a : pfamily) (tag : N) (w : wire) : option pfamily :=
  if tag =? 1 then
    match w with
    | WBytes b => Some {| pf_name := Some b; pf_help := pf_help a; pf_type := pf_type a; pf_metrics := pf_metrics a |}
    | _ => None
    end
  else if tag =? 2 then
    match w with
    | WBytes b => Some {| pf_name := pf_name a; pf_help := Some b; pf_type := pf_type a; pf_metrics := pf_metrics a |}
    | _ => None
    end
  else if tag =? 3 then
    match w with
    | WVarint v => Some {| pf_name := pf_name a; pf_help := pf_help a; pf_type := Some v; pf_metrics := pf_metrics a |}
    | _ => None
    end
  else if tag =? 4 then
    match w with
    | WBytes b =>
      option_map (fun m => {| pf_name := pf_name a; pf_help := pf_help a; pf_type := pf_type a;
                              pf_metrics := pf_metrics a ++ [m] |})
        (read_message pmetric_field empty_pmetric b)
    | _ => None
    end
  else Some a.

(** Delimited messages: each preceded by its length. *)
Fixpoint read_stream_upto (n : nat) (s : bytes) : option (list pfamily) :=
  match s with
  | [] => Some []
  | _ =>
    match n with
    | O => None
    | S n' =>
      match read_varint s with
      | None => None
      | Some (len, r) =>
        match take len r with
        | None => None
        | Some (m, r') =>
          match read_message pfamily_field empty_pfamily m, read_stream_upto n' r' with
          | Some f, Some fs => Some (f :: fs)
          | _, _ => None
          end
        end
      end
    end
  end.
Definition read_stream (s : bytes) : option (list pfamily) := read_stream_upto (length s) s.

(* ------------------------------------------------------------------ *)
(** ** What the families have to say *)

(** A family as registered: name, help text if documented, type, samples.  A
    documented [None] has no type and no samples. *)
Record rfamily := {
  rf_namespaces : list bytes; rf_base : bytes; rf_help : option bytes;
  rf_kind : option kind; rf_samples : list (labels * metric) }.

Definition rf_events (f : rfamily) : list event :=
  match rf_help f with Some h => [EvHelp (rf_namespaces f) (rf_base f) h] | None => [] end ++
  match rf_kind f with Some k => [EvType (rf_namespaces f) (rf_base f) k] | None => [] end ++
  map (fun p => EvSample (rf_namespaces f) (rf_base f) (fst p) (snd p)) (rf_samples f).

(** Samples only after a type, of that type; no histograms. *)
Definition rf_ok (f : rfamily) : Prop :=
  match rf_kind f with
  | None => rf_samples f = []
  | Some k => k <> KHistogram /\ Forall (fun p => metric_kind (snd p) = k) (rf_samples f)
  end.

Definition documented (f : rfamily) : Prop := rf_help f <> None.
Definition empty (f : rfamily) : Prop := rf_samples f = [].

(** The number a double stands for is exactly [z]. *)
Definition double_is (z : Z) (x : f64) : Prop :=
  match f_decode x with
  | S754_zero _ => z = 0%Z
  | S754_finite s m e =>
    (if s then (- z)%Z else z) = (Zpos m * 2 ^ e)%Z /\ (0 <= e)%Z \/
    (if s then (- z)%Z else z) * 2 ^ (- e) = Zpos m /\ (e < 0)%Z
  | _ => False
  end%Z.

Section Shows.
  Variable float_text : f64 -> bytes.

  Definition pair_shows (l : bytes * lvalue) (p : label_pair) : Prop :=
    lp_name p = Some (fst l) /\ exists t, lp_value p = Some t /\ label_shows float_text (snd l) t.

  (** The double for a metric: the bits of a float gauge; for an integer the
      double nearest to it, [nearest]. *)
  Variable nearest : Z -> f64 -> Prop.

  Definition sample_shows (s : labels * metric) (p : pmetric) : Prop :=
    Forall2 pair_shows (fst s) (pm_labels p) /\
    match snd s with
    | MCounter c => pm_gauge p = None /\ exists x, pm_counter p = Some (Some x) /\ nearest (Z.of_N c) x
    | MGauge z => pm_counter p = None /\ exists x, pm_gauge p = Some (Some x) /\ nearest z x
    | MFloatGauge b => pm_counter p = None /\ pm_gauge p = Some (Some b)
    | MHistogram _ _ _ _ => False
    end.

  Definition kind_number (k : kind) : N := match k with KCounter => 0 | _ => 1 end.

  Definition family_shows (f : rfamily) (p : pfamily) : Prop :=
    pf_name p = Some (full_name (rf_namespaces f) (rf_base f) []) /\
    pf_help p = rf_help f /\
    pf_type p = option_map kind_number (rf_kind f) /\
    Forall2 sample_shows (rf_samples f) (pf_metrics p).
End Shows.

(** The sequence in which the encoder attributes samples to the wrong family: a
    documented family without samples, later undocumented ones without samples,
    then an undocumented one with samples. *)
Definition misleading (fs : list rfamily) : Prop :=
  exists pre a mid b post, fs = pre ++ a :: mid ++ b :: post /\
    documented a /\ empty a /\ Forall (fun f => ~ documented f /\ empty f) mid /\
    ~ documented b /\ ~ empty b.

(** The families with samples. *)
Definition with_samples (fs : list rfamily) : list rfamily :=
  filter (fun f => match rf_samples f with [] => false | _ => true end) fs.

(** The bits of a float are 64 bits. *)
Definition bits_ok (m : metric) : Prop := match m with MFloatGauge b => b < 2 ^ 64 | _ => True end.
Definition rf_bits_ok (f : rfamily) : Prop := Forall (fun p => bits_ok (snd p)) (rf_samples f).

(** The family a field stands for; none if its collection panics. *)
Fixpoint family_content (nss : list bytes) (base : bytes) (help : option bytes) (f : family) : option rfamily :=
  match f with
  | FamMetric m => Some {| rf_namespaces := nss; rf_base := base; rf_help := help;
                           rf_kind := Some (metric_kind m); rf_samples := [([], m)] |}
  | FamVec k (Done l) => Some {| rf_namespaces := nss; rf_base := base; rf_help := help;
                                 rf_kind := Some k; rf_samples := l |}
  | FamVec k Panic => None
  | FamSome f => family_content nss base help f
  | FamNone => Some {| rf_namespaces := nss; rf_base := base; rf_help := help;
                       rf_kind := None; rf_samples := [] |}
  end.

(** The families of a group below the namespaces [nss], in order. *)
Inductive group_families : list bytes -> group -> list rfamily -> Prop :=
| GF_struct : forall nss fs l, fields_families nss fs l -> group_families nss (GStruct fs) l
| GF_composed : forall nss a b la lb, group_families nss a la -> group_families nss b lb ->
    group_families nss (GComposed a b) (la ++ lb)
| GF_ns : forall nss ns g l, group_families (nss ++ [ns]) g l -> group_families nss (GNamespace ns g) l
| GF_some : forall nss g l, group_families nss g l -> group_families nss (GSome g) l
| GF_none : forall nss, group_families nss GNone []
with fields_families : list bytes -> gfields -> list rfamily -> Prop :=
| FF_nil : forall nss, fields_families nss FieldsNil []
| FF_undocumented : forall nss name rename f rest r l,
    family_content nss (match rename with Some r => r | None => name end) None f = Some r ->
    fields_families nss rest l ->
    fields_families nss (FieldMetric name rename [] f rest) (r :: l)
| FF_documented : forall nss name rename docs help f rest r l, docs <> [] ->
    trimmed (concat docs) help ->
    family_content nss (match rename with Some r => r | None => name end) (Some help) f = Some r ->
    fields_families nss rest l ->
    fields_families nss (FieldMetric name rename docs f rest) (r :: l)
| FF_group : forall nss g rest lg l, group_families nss g lg -> fields_families nss rest l ->
    fields_families nss (FieldGroup g rest) (lg ++ l)
| FF_ns : forall nss ns g rest lg l, valid_metric_name ns ->
    group_families (nss ++ [ns]) g lg -> fields_families nss rest l ->
    fields_families nss (FieldNamespace ns g rest) (lg ++ l).

Scheme group_families_mind := Induction for group_families Sort Prop
  with fields_families_mind := Induction for fields_families Sort Prop.
Combined Scheme group_fields_families_ind from group_families_mind, fields_families_mind.
