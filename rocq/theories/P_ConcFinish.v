(** Property C77: calls come to an end.  Threads that make a bounded number of
    calls make them all if no thread is left out for ever and exchanges do not
    for ever fail without a reason; an exchange fails with a reason if another
    thread has exchanged, which is bounded by the calls. *)
From Coq Require Import List NArith ZArith Bool Arith Lia.
From Verif Require Import Base FloatModel MetricModel MetricExamples LabelModel LabelSpec ConcModel ConcSpec ConcTheorems ConcVecModel ConcVecSpec ConcVecTheorems
  ConcLabelModel ConcLabelExamples ConcDenseModel ConcDenseSpec ConcCallModel ConcCallSpec ConcCallTheorems ConcCallExamples ConcDenseCallModel ConcDenseCallSpec
  ConcDenseCallExamples ConcProgressSpec ConcProgress ConcFinishSpec ConcFinish ConcFinishCalls ConcFinishDense ConcFinishExamples P_ConcCall.
Import ListNotations.

(** The metrics. *)
Theorem C77_metrics :
  (forall v, brief_metric counter_machine v never) /\ (forall v, brief_metric igauge_machine v never) /\
  (forall v, brief_metric float_machine v float_spurious) /\
  (forall b, brief_metric hist_machine {| ch_lock := rw_free; ch_state := hist_new b |} hist_spurious).
Proof. exact (conj (atomic_brief _ _ _ _) (conj (atomic_brief _ _ _ _) (conj float_brief hist_brief))). Qed.
Print Assumptions C77_metrics.

(** The work the calls make is bounded, whatever the schedule, but for the
    repetitions after spurious failures. *)
Theorem C77_work : forall Sh Op Res Mic V w (m : metric_code Sh Op Res Mic V) bad (P : call_program Op Res V) n k,
  brief_metric (mc_machine m) (mc_new m) bad -> bounded_calls n k P ->
  exists a c, forall s, (sparse_work w m P s <= a + c * sparse_failures w m P bad s)%nat.
Proof. exact @sparse_work_bounded. Qed.
Print Assumptions C77_work.

Theorem C77_dense_work : forall (L : lgset) Sh Op Res Mic V (w : dense_setup L) (m : metric_code Sh Op Res Mic V) bad (P : dense_program L Op Res) n k,
  brief_metric (mc_machine m) (mc_new m) bad -> bounded_calls n k P ->
  exists a c, forall s, (dense_work w m P s <= a + c * dense_failures w m P bad s)%nat.
Proof. exact @dense_work_bounded. Qed.
Print Assumptions C77_dense_work.

(** All calls are made. *)
Theorem C77_finish : forall Sh Op Res Mic V St w (m : metric_code Sh Op Res Mic V) spec (st_new : St) aview bad (P : call_program Op Res V) n k f,
  setup_ok w -> (0 < su_shards w)%nat -> calls_shaped (su_fields w) P -> lively_metric (mc_machine m) (mc_new m) (mc_view m) spec st_new aview ->
  brief_metric (mc_machine m) (mc_new m) bad -> bounded_calls n k P ->
  fair n f -> (exists r, forall t, sparse_failures w m P bad (up_to f t) <= r)%nat ->
  exists t0, forall t, (t0 <= t)%nat -> sparse_over w m P (up_to f t).
Proof. exact sparse_all_finish. Qed.
Print Assumptions C77_finish.

Theorem C77_dense_finish : forall (L : lgset) Sh Op Res Mic V St (w : dense_setup L) (m : metric_code Sh Op Res Mic V) spec (st_new : St) aview bad
  (P : dense_program L Op Res) n k f, (0 < dn_cells w)%nat -> lively_metric (mc_machine m) (mc_new m) (mc_view m) spec st_new aview ->
  brief_metric (mc_machine m) (mc_new m) bad -> bounded_calls n k P ->
  fair n f -> (exists r, forall t, dense_failures w m P bad (up_to f t) <= r)%nat ->
  exists t0, forall t, (t0 <= t)%nat -> dense_over w m P (up_to f t).
Proof. exact dense_all_finish. Qed.
Print Assumptions C77_dense_finish.

(** Counters need no more than fairness. *)
Theorem C77_counters : forall w (P : call_program counter_op N N) n k f, setup_ok w -> (0 < su_shards w)%nat -> calls_shaped (su_fields w) P ->
  bounded_calls n k P -> fair n f -> exists t0, forall t, (t0 <= t)%nat -> sparse_over w counter_code P (up_to f t).
Proof. exact counters_finish. Qed.
Print Assumptions C77_counters.

Theorem C77_dense_counters : forall (L : lgset) (w : dense_setup L) (P : dense_program L counter_op N) n k f, (0 < dn_cells w)%nat ->
  bounded_calls n k P -> fair n f -> exists t0, forall t, (t0 <= t)%nat -> dense_over w counter_code P (up_to f t).
Proof. exact dense_counters_finish. Qed.
Print Assumptions C77_dense_counters.

(** Updates, deletions and collections of three threads, without end; after 400
    steps all is done. *)
Example C77_case :
  setup_ok ex_setup /\ (0 < su_shards ex_setup)%nat /\ calls_shaped (su_fields ex_setup) ex_count_program /\ bounded_calls 3 4 ex_count_program /\ fair 3 ex_for_ever /\
  map (fun i => length (finished_calls ex_setup counter_code ex_count_program (up_to ex_for_ever 100) i)) [0; 1; 2]%nat = [3; 2; 1]%nat /\
  map (fun i => length (finished_calls ex_setup counter_code ex_count_program (up_to ex_for_ever 400) i)) [0; 1; 2]%nat = map (@length _) ex_count_calls.
Proof.
  destruct C64_hypotheses as (A & B & _). split; [exact A|]. split; [cbn; lia|]. split; [exact B|]. split; [exact (in_turn_bounded _ _ _ ex_count_calls 4 eq_refl)|].
  split; [exact ex_fair|]. split; vm_compute; reflexivity.
Qed.

(** Histograms whose exchanges fail with a reason only. *)
Example C77_histogram_case :
  lively_metric (mc_machine (hist_code 2)) (mc_new (hist_code 2)) (mc_view (hist_code 2)) hist_spec (hist_new 2) hist_view /\
  calls_shaped (su_fields ex_setup) ex_hist_program /\ bounded_calls 3 3 ex_hist_program /\
  (exists r, forall t, sparse_failures ex_setup (hist_code 2) ex_hist_program hist_spurious (up_to ex_for_ever t) <= r)%nat /\
  map (fun i => length (finished_calls ex_setup (hist_code 2) ex_hist_program (up_to ex_for_ever 400) i)) [0; 1; 2]%nat = map (@length _) ex_hist_calls.
Proof.
  split; [exact (hist_lively 2)|]. split; [apply C64_hypotheses|]. split; [exact (in_turn_bounded _ _ _ ex_hist_calls 3 eq_refl)|]. split; [|vm_compute; reflexivity].
  exists 0%nat. intros t. unfold sparse_failures. rewrite no_spurious; [lia| |apply ex_choices].
  intros [mic|mic] sh; [reflexivity|]. unfold right_spurious, sparse_spurious. destruct mic; try reflexivity. destruct (find_id _ _); [|reflexivity].
  unfold hist_spurious. match goal with |- match ?y with _ => _ end = _ => destruct y end; try reflexivity. apply andb_false_r.
Qed.

(** A dense vec. *)
Example C77_dense_case :
  (0 < dn_cells ex_dense_setup)%nat /\ bounded_calls 3 6 ex_dense_program /\
  map (fun i => length (dense_finished ex_dense_setup counter_code ex_dense_program (up_to ex_for_ever 500) i)) [0; 1; 2]%nat = map (@length _) ex_dense_calls.
Proof. split; [cbn; lia|]. split; [exact (dense_in_turn_bounded _ _ ex_dense_calls 6 eq_refl)|]. vm_compute. reflexivity. Qed.

(** An exchange that fails for ever without a reason keeps its thread for ever. *)
Example C77_spurious : forall t, (1 <= t)%nat -> t_cur (c_th (ex_failing t) 0) <> None.
Proof. exact ex_never_ends. Qed.
