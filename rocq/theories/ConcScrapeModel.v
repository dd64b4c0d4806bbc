(** What an encoder is given when threads use the vec while it is collected:
    core/src/metric.rs:443-471. *)
From Coq Require Import List NArith.
From Verif Require Import Base LabelModel FloatModel EncoderModel ConcModel.
Import ListNotations.

(** metric.rs:450-467: for each metric met, the encoder is called with the label
    values of its group ([visit]) and what it reads of the metric ([read]), in the
    order of the collection ([l], from ConcCallModel.v or ConcDenseCallModel.v).
    The encoder belongs to the collecting thread: what it writes between two reads
    does not matter to the others, and so its work is done here at the end.  A
    collection that an error of the encoder cuts short is not represented. *)
Definition collected_family {G R} (visit : G -> labels) (k : kind) (read : R -> metric) (l : list (G * R)) : family :=
  FamVec k (Done (map (fun p => (visit (fst p), read (snd p))) l)).

(** core/src/text.rs:236-268: what is read of a histogram with bounds [ts]; [None] is a
    panic of the sampling, which does not happen. *)
Definition read_histogram (ts : list f64) (r : hist_res) : metric :=
  match r with
  | Some (bs, inf, sum) => MHistogram ts bs inf sum
  | None => MHistogram ts [] 0 0
  end%N.
