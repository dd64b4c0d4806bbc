(** Concrete groups for the examples beside the protobuf theorems. *)
From Coq Require Import String List NArith ZArith Bool.
From Verif Require Import Base Writer NameModel NameSpec LabelModel FloatModel EncoderModel TextModel TextSpec
  EncoderSpec TextExamples ProtoModel ProtoSpec.
Import ListNotations.
Local Open Scope N_scope.

Definition pfam (nss : list bytes) (base : string) (help : option bytes) (k : option kind)
    (l : list (labels * metric)) : rfamily :=
  {| rf_namespaces := nss; rf_base := str base; rf_help := help; rf_kind := k; rf_samples := l |}.

(** A documented counter vec with two samples, a vec without samples, a
    namespaced gauge, a documented family without samples, a documented float
    gauge. *)
Definition ex_pgroup : group :=
  GStruct
    (FieldMetric (str "errors") (Some (str "errors_total")) [str " number "; str "of errors "]
      (FamVec KCounter (Done [(ex_label "x", MCounter 3); (ex_nasty, MCounter (2 ^ 53))]))
    (FieldMetric (str "unused") None [] (FamVec KGauge (Done []))
    (FieldNamespace (str "http") (GStruct (FieldMetric (str "open") None []
         (FamSome (FamMetric (MGauge (-5)))) FieldsNil))
    (FieldMetric (str "gone") None [str "gone"] FamNone
    (FieldMetric (str "load") None [str "load"] (FamMetric (MFloatGauge 4607182418800017408)) FieldsNil))))).

Definition ex_pfamilies : list rfamily :=
  [ pfam [] "errors_total" (Some (str "number of errors")) (Some KCounter)
      [(ex_label "x", MCounter 3); (ex_nasty, MCounter (2 ^ 53))];
    pfam [] "unused" None (Some KGauge) [];
    pfam [str "http"] "open" None (Some KGauge) [([], MGauge (-5))];
    pfam [] "gone" (Some (str "gone")) None [];
    pfam [] "load" (Some (str "load")) (Some KFloatGauge) [([], MFloatGauge 4607182418800017408)] ].

(** A documented vec nobody has used yet, then an undocumented gauge. *)
Definition ex_pmisleading : group :=
  GStruct
    (FieldMetric (str "errors") None [str "number of errors"] (FamVec KCounter (Done []))
    (FieldMetric (str "open") None [] (FamMetric (MGauge 7)) FieldsNil)).
Definition ex_pmisled : list rfamily :=
  [ pfam [] "errors" (Some (str "number of errors")) (Some KCounter) [];
    pfam [] "open" None (Some KGauge) [([], MGauge 7)] ].

(** A single counter. *)
Definition ex_pcounter (name : string) (c : N) : group :=
  GStruct (FieldMetric (str name) None [] (FamMetric (MCounter c)) FieldsNil).
