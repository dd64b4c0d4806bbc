(** Concrete runs of vecs shared by threads. *)
From Coq Require Import List NArith ZArith Bool Arith.
From Verif Require Import Base FloatModel MetricModel MetricExamples ConcModel ConcSpec ConcProofs ConcExamples ConcVecModel ConcVecSpec.
Import ListNotations.
Local Open Scope nat_scope.

Definition ex_shard (k : nat) : nat := k mod 2.
Fixpoint rounds (n : nat) (l : schedule) : schedule := match n with 0 => [] | S n => l ++ rounds n l end.

(** Two threads count under labels 5 and 7 (same shard) while a third removes
    label 5 and a fourth collects the shard. *)
Definition ex_cvec_calls : list (list (vec_op nat counter_op)) :=
  [[SGet 0 5; SUse 0 5 KInc; SDrop 0; SGet 0 7; SUse 0 7 (KIncBy 2); SDrop 0; SGet 1 5; SUse 1 5 (KIncBy 40); SDrop 1];
   [SGet 0 5; SUse 0 5 (KIncBy 3); SUse 0 5 KRead; SDrop 0];
   [SRemove 5; SRemove 5; SRemove 9; SRemove 5];
   [SOpen 0 1; SUse 0 5 KRead; SDrop 0; SOpen 0 1; SUse 0 7 KRead; SDrop 0]].
Definition ex_cvec_schedule : schedule := rounds 60 [(0, 0); (1, 0); (2, 0); (3, 0); (0, 0); (1, 0); (0, 1)].
Definition ex_cvec_end := run (counter_vec Nat.eqb ex_shard) (calls (at_nat ex_cvec_calls)) ex_cvec_schedule (start_config sv_new).
Definition ex_cvec_mid := run (counter_vec Nat.eqb ex_shard) (calls (at_nat ex_cvec_calls)) (firstn 24 ex_cvec_schedule) (start_config sv_new).

Definition ex_hvec_calls : list (list (vec_op nat hist_op)) :=
  [[SGet 0 5; SUse 0 5 (HObserve 0 f_half); SDrop 0];
   [SGet 0 5; SUse 0 5 (HObserve 2 f_three); SUse 0 5 (HObserve 1 f_two); SDrop 0];
   [SGet 3 5; SUse 3 5 HSample; SDrop 3; SRemove 5; SOpen 3 1; SDrop 3]].
Definition ex_hvec_schedule : schedule := rounds 80 [(0, 0); (1, 0); (2, 0)].
Definition ex_hvec_end := run (hist_vec 2 Nat.eqb ex_shard) (calls (at_nat ex_hvec_calls)) ex_hvec_schedule (start_config sv_new).
