(** Property C71: threads that make whole calls on a vec never deadlock.  The
    methods have at most one guard at a time and drop it before they return
    (C64), which is what C55 asks of programs. *)
From Coq Require Import List NArith ZArith Bool Arith Lia.
From Verif Require Import Base FloatModel MetricModel MetricExamples LabelModel LabelSpec ConcModel ConcSpec ConcTheorems ConcVecModel ConcVecSpec ConcVecTheorems
  ConcLabelModel ConcLabelExamples ConcDenseModel ConcDenseSpec ConcCallModel ConcCallSpec ConcCallTheorems ConcCallExamples ConcDenseCallModel ConcDenseCallSpec
  ConcDenseCallExamples ConcProgressSpec ConcProgress ConcCallProgress ConcCallProgressExamples P_ConcCall.
Import ListNotations.

(** Updates, deletions and collections on a sparse vec. *)
Theorem C71_sparse : forall Sh Op Res Mic V St w (m : metric_code Sh Op Res Mic V) spec (st_new : St) aview (P : call_program Op Res V),
  setup_ok w -> calls_shaped (su_fields w) P -> lively_metric (mc_machine m) (mc_new m) (mc_view m) spec st_new aview ->
  deadlock_free
    (shared_vec (su_build w) (su_fields w) (su_loc w) (su_accepts w) (su_shard_of w) (mc_machine m) (mc_new m) (mc_view m))
    (su_strings w, sv_new) (calling (su_shards w) (mc_read m) P).
Proof. exact @sparse_calls_free. Qed.
Print Assumptions C71_sparse.

(** On a dense vec, counting too. *)
Theorem C71_dense : forall (L : lgset) Sh Op Res Mic V St (w : dense_setup L) (m : metric_code Sh Op Res Mic V) spec (st_new : St) aview
  (P : dense_program L Op Res), lively_metric (mc_machine m) (mc_new m) (mc_view m) spec st_new aview ->
  deadlock_free (shared_dense w m) (tt, dv_new) (follow dense_init (dense_next (dn_cells w) (mc_read m)) dense_adv P).
Proof. exact dense_calls_free. Qed.
Print Assumptions C71_dense.

(** Thread 1 waits for the lock of a shard, later thread 0 does; in the end all
    calls are made. *)
Example C71_case :
  setup_ok ex_setup /\ calls_shaped (su_fields ex_setup) ex_count_program /\
  lively_metric (mc_machine counter_code) (mc_new counter_code) (mc_view counter_code) (pure_spec counter_eff) 0%N (fun v => v) /\
  ex_vec_steps counter_code ex_count_program 1 3 (firstn 26 (ex_call_schedule 60)) = [true; false; true] /\
  ex_vec_steps counter_code ex_count_program 1 3 (firstn 53 (ex_call_schedule 60)) = [false; true; true] /\
  map (fun i => length (finished_calls ex_setup counter_code ex_count_program (ex_call_schedule 150) i)) [0; 1; 2]%nat = map (@length _) ex_count_calls.
Proof. destruct C64_hypotheses as (A & B & _). split; [exact A|]. split; [exact B|]. split; [exact (atomic_lively _ _ _ _ _)|]. repeat split; vm_compute; reflexivity. Qed.

(** Thread 1 waits for thread 0, which is making the counter both want; in
    the end all calls are made. *)
Example C71_dense_case :
  ex_dense_steps counter_code ex_dense_program 0 3 (repeat (0, 0) 5 ++ repeat (1, 0) 5)%nat = [true; false; true] /\
  map (fun i => length (dense_finished ex_dense_setup counter_code ex_dense_program (ex_dense_schedule 150) i)) [0; 1; 2]%nat = map (@length _) ex_dense_calls.
Proof. vm_conj. Qed.
