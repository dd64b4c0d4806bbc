(** Threads that count what they have in flight. *)
From Coq Require Import String List NArith ZArith Bool Arith Lia.
From Verif Require Import Base FloatModel MetricModel MetricExamples LabelModel LabelSpec ConcModel ConcSpec ConcExamples ConcVecModel ConcVecSpec ConcVecExamples
  ConcLabelModel ConcLabelSpec ConcLabelExamples ConcCallModel ConcCallSpec ConcCallTheorems ConcCallExamples
  ConcDenseModel ConcDenseSpec ConcDenseCallModel ConcDenseCallSpec ConcDenseCallExamples ConcMomentSpec.
Import ListNotations.
Local Open Scope nat_scope.

Definition ex_inc (g : group_val) : vec_call igauge_op := CUpdate g (IWrite GInc).
Definition ex_dec (g : group_val) : vec_call igauge_op := CUpdate g (IWrite GDec).
(** Two threads go in and out; the third collects; ann is set by the first. *)
Definition ex_flight_calls : list (list (vec_call igauge_op)) :=
  [[ex_inc ex_bob; ex_dec ex_bob; CUpdate ex_ann (IWrite (GSet 7)); ex_inc ex_bob; ex_dec ex_bob; ex_inc ex_bob; ex_dec ex_bob];
   [ex_inc ex_bob; ex_dec ex_bob; ex_inc ex_bob; ex_dec ex_bob]; [CCollect; CCollect; CCollect]].
Definition ex_flight_program : call_program igauge_op Z Z := in_turn ex_flight_calls.
Definition ex_flight_results (s : schedule) (i : nat) :=
  map (fun d => result_of (fst d) (snd d)) (finished_calls ex_setup gauge_code ex_flight_program s i).
Definition ex_fly1 : schedule := repeat (0, 0) 25 ++ repeat (1, 0) 15.
Definition ex_fly2 : schedule := repeat (0, 0) 17 ++ rounds 26 [(2, 0); (0, 0)].

Definition ex_dflight_calls : list (list (dense_call (derived_lgset Debug) igauge_op)) :=
  [[upd_call ex_get_a (IWrite GInc); upd_call ex_get_a (IWrite GDec); upd_call ex_get_a (IWrite GInc); upd_call ex_get_a (IWrite GDec)];
   [upd_call ex_get_a (IWrite GInc); upd_call ex_get_a (IWrite GDec); upd_call ex_get_a (IWrite GInc)]; [ECollect; ECollect]].
Definition ex_dflight_program : dense_program (derived_lgset Debug) igauge_op Z := dense_in_turn ex_dflight_calls.
Definition ex_dflight_results (s : schedule) (i : nat) :=
  map (fun d => dense_result_of (fst d) (snd d)) (dense_finished ex_dense_setup gauge_code ex_dflight_program s i).
Definition ex_dfly1 : schedule := repeat (0, 0) 11 ++ repeat (1, 0) 10.
Definition ex_dfly2 : schedule := repeat (2, 0) 6 ++ rounds 20 [(2, 0); (1, 0)].


(** One thread sets and raises a float gauge; the other collects. *)
Definition ex_fwriter_calls : list (list (vec_call float_op)) :=
  [[CUpdate ex_ann (FWrite (FSet f_half)); CUpdate ex_ann (FWrite (FIncBy f_two)); CUpdate ex_ann (FWrite (FSet f_three)); CUpdate ex_ann (FWrite FInc)];
   [CCollect; CCollect]].
Definition ex_fwriter_program : call_program float_op N N := in_turn ex_fwriter_calls.
Definition ex_fwriter_results (s : schedule) (i : nat) :=
  map (fun d => result_of (fst d) (snd d)) (finished_calls ex_setup float_code ex_fwriter_program s i).
Definition ex_ffly1 : schedule := repeat (0, 0) 30.
Definition ex_ffly2 : schedule := repeat (0, 0) 10 ++ rounds 26 [(1, 0); (0, 0)].
