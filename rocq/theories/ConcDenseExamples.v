(** Concrete runs of dense vecs shared by threads. *)
From Coq Require Import List NArith ZArith Bool Arith.
From Verif Require Import Base FloatModel MetricModel MetricExamples ConcModel ConcSpec ConcProofs ConcExamples ConcVecModel ConcVecSpec ConcVecExamples
  ConcDenseModel ConcDenseSpec.
Import ListNotations.
Local Open Scope nat_scope.

(** Two threads ask for cell 2 at the same time and one has to wait for the
    other; a third collects and a fourth asks for a cell that is not there. *)
Definition ex_dvec_calls : list (list (dense_op counter_op)) :=
  [[DGet 0 2; DUse 0 2 KInc; DUse 0 2 (KIncBy 10)];
   [DGet 0 2; DUse 0 2 (KIncBy 100); DUse 0 2 KRead];
   [DPeek 0 2; DPeek 0 2; DPeek 0 2; DPeek 0 2; DPeek 0 2; DPeek 1 1; DUse 0 2 KRead];
   [DGet 0 3]].
Definition ex_dvec_schedule : schedule := rounds 20 [(0, 0); (1, 0); (2, 0); (3, 0)].
Definition ex_dvec_run n := run (dense_counter_vec 3) (calls (at_nat ex_dvec_calls)) (firstn n ex_dvec_schedule) (start_config dv_new).
Definition ex_dvec_end := ex_dvec_run 80.

Definition ex_dhist_calls : list (list (dense_op hist_op)) :=
  [[DGet 0 1; DUse 0 1 (HObserve 0 f_half)];
   [DGet 7 1; DUse 7 1 (HObserve 2 f_three); DUse 7 1 HSample]].
Definition ex_dhist_end := run (dense_hist_vec 2 4) (calls (at_nat ex_dhist_calls)) (rounds 40 [(0, 0); (1, 0)]) (start_config dv_new).
