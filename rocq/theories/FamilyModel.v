(** A [MetricVec] as a metric family: core/src/metric.rs:443-471. *)
From Coq Require Import List NArith.
From Verif Require Import Base LabelModel VecModel EncoderModel.
Import ListNotations.

(** metric.rs:448-468: every sample met by the collection loop is handed to the
    encoder with the label values of its group ([visit]) and the metric as the
    encoding reads it under the vec's metadata ([read]). *)
Definition vec_family (L : lgset) (M : Type) (iter : list (entry L M) -> list (entry L M))
    (visit : lg_group L -> labels) (k : kind) (read : M -> metric) (v : metric_vec L M) : family :=
  FamVec k (let! l := vec_samples L M iter v in
            Done (map (fun p => (visit (fst p), read (snd p))) l)).
