(** Concrete inputs for the examples beside the theorems about encoders. *)
From Coq Require Import String List NArith ZArith Bool.
From Verif Require Import Base Writer NameModel NameSpec LabelModel FloatModel EncoderModel TextModel TextSpec
  EncoderSpec.
Import ListNotations.
Local Open Scope N_scope.

(** A float formatter: the bits in decimal. *)
Definition ex_ryu (x : f64) : bytes := itoa_nat x.

(** A group with a documented counter vec, a namespaced gauge and a histogram
    with labels containing quotes, backslashes and line feeds. *)
Definition ex_label (s : string) : labels := [(str "kind", LStr (str s)); (str "code", LInt 404)].
Definition ex_nasty : labels := [(str "path", LStr (str "a\b" ++ [10; 34] ++ str "c"))].
Definition ex_histogram : metric := MHistogram [0; 1] [2; 3] 4 7.
Definition ex_tree : group :=
  GComposed
    (GStruct (FieldMetric (str "errors") (Some (str "errors_total")) [str " number "; str "of errors "]
      (FamVec KCounter (Done [(ex_label "x", MCounter 3); (ex_label "y", MCounter 12)]))
      (FieldNamespace (str "http") (GStruct (FieldMetric (str "open") None []
         (FamSome (FamMetric (MGauge (-5)))) FieldsNil))
      (FieldMetric (str "gone") None [] FamNone FieldsNil))))
    (GNamespace (str "app") (GSome (GStruct (FieldMetric (str "latency") None []
       (FamVec KHistogram (Done [(ex_nasty, ex_histogram)])) FieldsNil)))).

Definition ex_events : list event :=
  [ EvHelp [] (str "errors_total") (str "number of errors");
    EvType [] (str "errors_total") KCounter;
    EvSample [] (str "errors_total") (ex_label "x") (MCounter 3);
    EvSample [] (str "errors_total") (ex_label "y") (MCounter 12);
    EvType [str "http"] (str "open") KGauge;
    EvSample [str "http"] (str "open") [] (MGauge (-5));
    EvType [str "app"] (str "latency") KHistogram;
    EvSample [str "app"] (str "latency") ex_nasty ex_histogram ].

(** A writer that fails on the calls listed. *)
Definition ex_failing (calls : list nat) : writer :=
  {| w_out := []; w_calls := 0;
     w_plan := fun k => if existsb (Nat.eqb k) calls then Some 0%nat else None |}.

(** A writer that writes part of the [n]th call and fails from then on. *)
Definition ex_broken (n : nat) : writer :=
  {| w_out := []; w_calls := 0;
     w_plan := fun k => if Nat.eqb n k then Some 1%nat else if Nat.ltb n k then Some 0%nat else None |}.

(** One counter vec with one labelled sample. *)
Definition ex_labelled : group :=
  GStruct (FieldMetric (str "hits") None [] (FamVec KCounter (Done [(ex_label "x", MCounter 1)])) FieldsNil).

(** A counter whose documentation contains the given text. *)
Definition ex_documented (docs : bytes) : group :=
  GStruct (FieldMetric (str "c") None [docs] (FamMetric (MCounter 1)) FieldsNil).
