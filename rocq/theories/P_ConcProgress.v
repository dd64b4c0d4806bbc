(** Property C55: deadlocks.  A reader waits for waiting writers if the lock
    decides so; the thread that can go on can do so whatever is decided. *)
From Coq Require Import List NArith ZArith Bool Arith Lia.
From Verif Require Import Base FloatModel MetricModel MetricExamples ConcModel ConcSpec ConcProofs ConcTheorems ConcExamples
  ConcVecModel ConcVecSpec ConcVecTheorems ConcVecExamples ConcDenseModel ConcDenseSpec ConcProgressSpec ConcProgress ConcProgressExamples.
Import ListNotations.

(** Counters, gauges and histograms do not deadlock, alone or in a vec. *)
Theorem C55_metrics :
  (forall v, lively_metric counter_machine v (fun v => v) (pure_spec counter_eff) v (fun v => v)) /\
  (forall v, lively_metric igauge_machine v (fun v => v) (pure_spec igauge_eff) v (fun v => v)) /\
  (forall v, lively_metric float_machine v (fun v => v) float_spec v (fun v => v)) /\
  (forall n, lively_metric hist_machine {| ch_lock := rw_free; ch_state := hist_new n |} (fun c => hist_view (ch_state c))
     hist_spec (hist_new n) hist_view).
Proof. exact (conj (atomic_lively _ _ _ _) (conj (atomic_lively _ _ _ _) (conj float_lively hist_lively))). Qed.
Print Assumptions C55_metrics.

Theorem C55_metric : forall Sh Op Res Mic V St (O : machine Sh Op Res Mic) sh_new (view : Sh -> V) spec (st_new : St) aview,
  lively_metric O sh_new view spec st_new aview -> forall prog, deadlock_free O sh_new prog.
Proof. exact metric_deadlock_free. Qed.
Print Assumptions C55_metric.

(** Sparse vecs: lookups, uses, removals and collections by threads that have at
    most one guard at a time. *)
Theorem C55_sparse : forall K Sh Op Res Mic V St keqb (keqb_eq : forall x y : K, keqb x y = true <-> x = y) shard_of
  (O : machine Sh Op Res Mic) sh_new (view : Sh -> V) spec (st_new : St) aview, lively_metric O sh_new view spec st_new aview ->
  forall prog, one_guard prog -> deadlock_free (sparse_machine keqb shard_of O sh_new view) sv_new prog.
Proof. exact @sparse_deadlock_free. Qed.
Print Assumptions C55_sparse.

(** Which programs these are, if they are lists of calls. *)
Theorem C55_one_guard : forall K Op Res V (l : nat -> list (vec_op K Op)), (forall i, takes_turns None (l i) = true) ->
  one_guard (calls (Res := vec_res K Res V) l).
Proof. exact takes_turns_one_guard. Qed.
Print Assumptions C55_one_guard.

(** Dense vecs: any program. *)
Theorem C55_dense : forall Sh Op Res Mic V St (O : machine Sh Op Res Mic) sh_new (view : Sh -> V) spec (st_new : St) aview,
  lively_metric O sh_new view spec st_new aview -> forall card prog, deadlock_free (dense_machine O sh_new card) dv_new prog.
Proof. exact dense_deadlock_free. Qed.
Print Assumptions C55_dense.

(** The restriction to one guard is needed: one thread with two guards of a
    shard, or with a guard and a collection of the shard, can block for ever. *)
Theorem C55_two_guards_refuted :
  ~ deadlock_free ex_vec sv_new (calls (at_nat [[SGet 0 5; SGet 1 7]])) /\
  ~ deadlock_free ex_vec sv_new (calls (at_nat [[SGet 0 5; SOpen 1 1; SDrop 1; SDrop 0]; [SRemove 5]])).
Proof. exact (conj two_guards_stuck collect_with_guard_stuck). Qed.
Print Assumptions C55_two_guards_refuted.

(** Threads 1, 2 and 3 wait for thread 0, which can go on; in the end all calls are made. *)
Example C55_nonvacuous :
  (forall i, takes_turns None (at_nat ex_cvec_calls i) = true) /\
  map (fun j => match t_cur (c_th ex_wait j) with
                | Some (_, mic) => match m_step ex_vec j 0 mic (c_sh ex_wait) with Some _ => true | None => false end
                | None => true
                end) [0; 1; 2; 3]%nat = [true; false; false; false] /\
  map (fun j => length (t_done (c_th ex_cvec_end j))) [0; 1; 2; 3]%nat = map (@length _) ex_cvec_calls.
Proof.
  split; [|split; vm_compute; reflexivity]. intros i. do 4 (destruct i as [|i]; [vm_compute; reflexivity|]).
  unfold at_nat. rewrite nth_overflow; [reflexivity|]. cbn. lia.
Qed.
