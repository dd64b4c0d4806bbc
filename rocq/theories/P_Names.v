(** Property theorems about names: C32, C33, C34, C35. *)
From Coq Require Import List NArith String.
From Verif Require Import Base Writer NameModel NameSpec NameProofs.
Import ListNotations.

(** C32 (first half): [MetricName::from_str] accepts exactly the documented
    regular expression [a-zA-Z_:][a-zA-Z0-9_:]*. *)
Theorem C32_from_str_iff_regex : forall n : bytes,
  (valid_metric_name n -> metric_name_from_str n = Done n) /\
  (~ valid_metric_name n -> metric_name_from_str n = Panic).
Proof. exact metric_from_str_exact. Qed.
Print Assumptions C32_from_str_iff_regex.

Example C32_valid_case : valid_metric_name (str "http_requests:rate5m").
Proof. apply valid_metric_nameb_spec. reflexivity. Qed.
Example C32_invalid_case : ~ valid_metric_name (str "9lives").
Proof. rewrite <- valid_metric_nameb_spec. discriminate. Qed.

(** C32 (second half) is false: [try_from_str] accepts a name outside the
    regular expression. *)
Theorem C32_try_from_str_refuted :
  exists n, metric_name_try_from_str n = inl n /\ ~ valid_metric_name n.
Proof. exact try_from_str_dash. Qed.
Print Assumptions C32_try_from_str_refuted.

(** What holds instead: every valid name is accepted, and what is accepted is
    exactly what becomes valid when '-' is read as '_'. *)
Theorem C32_try_from_str_exact : forall n : bytes,
  (valid_metric_name (dash_to_underscore n) -> metric_name_try_from_str n = inl n) /\
  (~ valid_metric_name (dash_to_underscore n) -> exists e, metric_name_try_from_str n = inr e) /\
  (valid_metric_name n -> metric_name_try_from_str n = inl n).
Proof. exact try_from_str_all. Qed.
Print Assumptions C32_try_from_str_exact.

(** The reported error names a real defect of the string. *)
Theorem C32_try_from_str_error : forall n e, metric_name_try_from_str n = inr e ->
  match e with
  | Empty => n = []
  | InvalidChars => exists b, In b n /\ ~ matches lenient_class [b]
  | StartsWithNumber => exists b t, n = b :: t /\ (48 <= b <= 57)%N
  end.
Proof. exact try_from_str_error. Qed.
Print Assumptions C32_try_from_str_error.
Example C32_error_case : metric_name_try_from_str (str "a b") = inr InvalidChars.
Proof. reflexivity. Qed.

(** C33: [LabelName::from_str] accepts exactly [a-zA-Z_][a-zA-Z0-9_]*. *)
Theorem C33_label_name_iff_regex : forall n : bytes,
  (valid_label_name n -> label_name_from_str n = Done n) /\
  (~ valid_label_name n -> label_name_from_str n = Panic).
Proof. exact label_from_str_exact. Qed.
Print Assumptions C33_label_name_iff_regex.

Example C33_valid_case : valid_label_name (str "le").
Proof. apply valid_label_nameb_spec. reflexivity. Qed.
Example C33_invalid_case : ~ valid_label_name (str "a:b").
Proof. rewrite <- valid_label_nameb_spec. discriminate. Qed.

(** C34: writing a name to a writer that accepts everything appends exactly
    [encode_len] bytes, namely the namespaces (outermost first), the base name
    and the suffix words, joined by underscores. *)
Theorem C34_encode_exact : forall (n : mname) (w : writer), (forall k, w_plan w k = None) ->
  exists w', encode_utf8 write_all n w = (w', ROk) /\
    w_out w' = w_out w ++ full_name (namespaces_of n) (base_of n) (suffixes_of n) /\
    nlen (full_name (namespaces_of n) (base_of n) (suffixes_of n)) = encode_len n.
Proof. exact encode_exact. Qed.
Print Assumptions C34_encode_exact.

Example C34_case :
  let n := NSuffix (NNamespace (str "app") (NNamespace (str "db") (NBase (str "queries")))) Total in
  w_out (fst (encode_utf8 write_all n (good_writer []))) = str "app_db_queries_total"
  /\ encode_len n = 20%N.
Proof. split; reflexivity. Qed.

(** C35: names put together from valid parts are valid. *)
Theorem C35_composed_names_valid : forall n : mname,
  Forall valid_metric_name (base_of n :: namespaces_of n) ->
  valid_metric_name (full_name (namespaces_of n) (base_of n) (suffixes_of n)).
Proof. exact composed_names_valid. Qed.
Print Assumptions C35_composed_names_valid.

Example C35_case :
  let n := NNamespace (str "app") (NSuffix (NBase (str "db:latency")) Bucket) in
  Forall valid_metric_name (base_of n :: namespaces_of n)
  /\ full_name (namespaces_of n) (base_of n) (suffixes_of n) = str "app_db:latency_bucket".
Proof.
  split; [|reflexivity].
  repeat constructor; apply valid_metric_nameb_spec; reflexivity.
Qed.

(** So every name a program can build with the infallible functions is valid,
    because a namespace is checked like a name. *)
Theorem C35_built_names_valid : forall n : mname, built n ->
  valid_metric_name (full_name (namespaces_of n) (base_of n) (suffixes_of n)).
Proof. exact built_names_valid. Qed.
Print Assumptions C35_built_names_valid.

Theorem C35_namespace_checked : forall ns (n : mname),
  (valid_metric_name ns -> in_namespace ns n = Done (NNamespace ns n)) /\
  (~ valid_metric_name ns -> in_namespace ns n = Panic).
Proof. exact in_namespace_exact. Qed.
Print Assumptions C35_namespace_checked.

Example C35_built_case : built (NNamespace (str "app") (NSuffix (NBase (str "db:latency")) Bucket)).
Proof.
  eapply (B_ns _ (str "app")); [|reflexivity]. apply B_suffix. now apply (B_base (str "db:latency")).
Qed.
