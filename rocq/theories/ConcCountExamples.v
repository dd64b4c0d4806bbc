(** Threads that count the metrics of a vec. *)
From Coq Require Import String List NArith ZArith Bool Arith.
From Verif Require Import Base FloatModel MetricModel LabelModel LabelSpec MetricExamples ConcModel ConcSpec ConcExamples ConcVecModel ConcVecSpec ConcVecExamples ConcLabelModel ConcLabelSpec
  ConcLabelExamples ConcCallModel ConcCallSpec ConcCallTheorems ConcTheorems ConcCallExamples.
Import ListNotations.
Local Open Scope nat_scope.

Definition ex_cal : group_val := ex_request "/b" "get" "ann" "bob".

(** Two threads count while one brings in groups. *)
Definition ex_counting_calls : list (list (vec_call counter_op)) :=
  [[CUpdate ex_bob KInc; CUpdate ex_ann KInc; CUpdate ex_cal KInc]; [CCount; CCount]; [CCount; CCount; CCount; CCount]].
Definition ex_counting : call_program counter_op N N := in_turn ex_counting_calls.
Definition ex_counts (s : schedule) (i : nat) :=
  map (fun d => result_of (fst d) (snd d)) (finished_calls ex_setup counter_code ex_counting s i).
(** Bob is there and is counted; then ann comes while a thread counts; then cal. *)
Definition ex_count_begin : schedule := repeat (0, 0) 20 ++ repeat (2, 0) 10.
Definition ex_count_mid : schedule := repeat (2, 0) 5 ++ repeat (0, 0) 31 ++ repeat (2, 0) 5.
Definition ex_count_end : schedule := repeat (0, 0) 30.
Definition ex_count_last : schedule := repeat (2, 0) 10.

(** Ann goes, bob comes, and there is never more than one of them. *)
Definition ex_swap_calls : list (list (vec_call counter_op)) := [[CUpdate ex_ann KInc; CDelete ex_ann; CUpdate ex_bob KInc]; [CCount]].
Definition ex_swap : call_program counter_op N N := in_turn ex_swap_calls.
Definition ex_swap_counts (s : schedule) (i : nat) :=
  map (fun d => result_of (fst d) (snd d)) (finished_calls ex_setup counter_code ex_swap s i).
Definition ex_swap_schedule : schedule := repeat (0, 0) 20 ++ repeat (1, 0) 5 ++ repeat (0, 0) 60 ++ repeat (1, 0) 60.
