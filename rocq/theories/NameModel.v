(** Metric names and label names: core/src/metric/name.rs, core/src/label/name.rs *)
From Coq Require Import List NArith Bool String.
From Verif Require Import Base Writer.
Import ListNotations.
Local Open Scope N_scope.

(** [b'x'..=b'y'] *)
Definition in_range (lo hi b : N) : bool := (lo <=? b) && (b <=? hi).

(** [u8::is_ascii_digit] *)
Definition is_ascii_digit (b : N) : bool := in_range 48 57 b.

(** core/src/metric/name.rs:67-70, the match arm of [const_assert_metric_name]:
    b'0'..=b'9' | b'A'..=b'Z' | b'a'..=b'z' | b'_' | b':' *)
Definition const_metric_char (b : N) : bool :=
  in_range 48 57 b || in_range 65 90 b || in_range 97 122 b || (b =? 95) || (b =? 58).

(** core/src/metric/name.rs:62-78 [const_assert_metric_name].  The while loop
    panics on the first bad byte, which is the same as panicking if some byte
    is bad. *)
Definition const_assert_metric_name (name : bytes) : outcome unit :=
  match name with
  | [] => Panic
  | b0 :: _ =>
    if negb (forallb const_metric_char name) then Panic
    else if is_ascii_digit b0 then Panic
    else Done tt
  end.

(** core/src/metric/name.rs:33-41 *)
Inductive invalid_metric_name := InvalidChars | Empty | StartsWithNumber.

(** core/src/metric/name.rs:85-88, the closure of [try_fold]:
    b'0'..=b'9' | b'A'..=b'Z' | b'a'..=b'z' | b'-' | b'_' | b':' *)
Definition try_metric_char (b : N) : bool :=
  in_range 48 57 b || in_range 65 90 b || in_range 97 122 b
  || (b =? 45) || (b =? 95) || (b =? 58).

(** core/src/metric/name.rs:80-95 [try_assert_metric_name]; [None] is Ok. *)
Definition try_assert_metric_name (value : bytes) : option invalid_metric_name :=
  match value with
  | [] => Some Empty
  | b0 :: _ =>
    if negb (forallb try_metric_char value) then Some InvalidChars
    else if is_ascii_digit b0 then Some StartsWithNumber
    else None
  end.

(** core/src/metric/name.rs:103-109 [MetricName::from_str] *)
Definition metric_name_from_str (value : bytes) : outcome bytes :=
  let! _ := const_assert_metric_name value in Done value.

(** core/src/metric/name.rs:115-121 [MetricName::try_from_str] *)
Definition metric_name_try_from_str (value : bytes) : bytes + invalid_metric_name :=
  match try_assert_metric_name value with
  | None => inl value
  | Some e => inr e
  end.

(** core/src/label/name.rs:31-34 *)
Definition label_char (b : N) : bool :=
  in_range 48 57 b || in_range 65 90 b || in_range 97 122 b || (b =? 95).

(** core/src/label/name.rs:26-42 [assert_label_name] *)
Definition assert_label_name (name : bytes) : outcome unit :=
  match name with
  | [] => Panic
  | b0 :: _ =>
    if negb (forallb label_char name) then Panic
    else if is_ascii_digit b0 then Panic
    else Done tt
  end.

(** core/src/label/name.rs:17-23 [LabelName::from_str] *)
Definition label_name_from_str (value : bytes) : outcome bytes :=
  let! _ := assert_label_name value in Done value.

(** core/src/metric/name.rs:229-236 [Total], [Count], [Sum], [Bucket] *)
Inductive suffix := Total | Count | Sum | Bucket.

(** core/src/metric/name.rs:238-272 [Suffix::encode_text] *)
Definition suffix_text (s : suffix) : bytes :=
  match s with
  | Total => str "_total"
  | Count => str "_count"
  | Sum => str "_sum"
  | Bucket => str "_bucket"
  end.

(** core/src/metric/name.rs:238-272 [Suffix::encode_len] *)
Definition suffix_len (s : suffix) : N :=
  match s with Total => 6 | Count => 6 | Sum => 4 | Bucket => 7 end.

(** Values implementing [MetricNameEncoder]: [MetricName] (name.rs:60),
    [WithNamespace] (name.rs:173-176), [WithSuffix] (name.rs:214-217). *)
Inductive mname :=
| NBase (name : bytes)
| NNamespace (ns : bytes) (inner : mname)
| NSuffix (inner : mname) (s : suffix).

(** [MetricNameEncoder::encode_utf8]: name.rs:143-145 (base), 203-207
    (namespace), 220-223 (suffix).  [lift] runs a [write_all] in the caller's
    state (the encoder owns the writer). *)
Fixpoint encode_utf8 {S} (wr : bytes -> io S) (n : mname) : io S :=
  match n with
  | NBase b => wr b
  | NNamespace ns inner => wr ns ;;? wr (str "_") ;;? encode_utf8 wr inner
  | NSuffix inner s => encode_utf8 wr inner ;;? wr (suffix_text s)
  end.

(** [MetricNameEncoder::encode_len]: name.rs:146-148, 208-210, 224-226.
    Overflow of the usize additions is not modelled (it would need names of
    2^64 bytes). *)
Fixpoint encode_len (n : mname) : N :=
  match n with
  | NBase b => nlen b
  | NNamespace ns inner => nlen ns + 1 + encode_len inner
  | NSuffix inner s => encode_len inner + suffix_len s
  end.

(** core/src/metric/name.rs:125-130 [MetricName::in_namespace] and
    name.rs:183-188 [WithNamespace::new]: the namespace is validated. *)
Definition in_namespace (ns : bytes) (inner : mname) : outcome mname :=
  let! ns' := metric_name_from_str ns in Done (NNamespace ns' inner).
