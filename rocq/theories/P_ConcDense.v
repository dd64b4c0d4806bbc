(** Property C54: dense vecs shared by threads.  [prog] is any program, [s] any
    schedule, [card] the cardinality of the label set. *)
From Coq Require Import List NArith ZArith Bool Arith Lia.
From Verif Require Import Base FloatModel MetricModel MetricExamples ConcModel ConcSpec ConcProofs ConcTheorems ConcExamples
  ConcVecSpec ConcVecTheorems ConcDenseModel ConcDenseSpec ConcDense ConcDenseTheorems ConcDenseExamples.
Import ListNotations.

(** Every reference handed out is to the metric in the cell: two threads that
    ask for the same label get the same metric. *)
Theorem C54_same_metric : forall Sh Op Res Mic V St (O : machine Sh Op Res Mic) sh_new (view : Sh -> V) spec (st_new : St) aview,
  good_metric O sh_new view spec st_new aview -> forall card prog s,
  let c := c_sh (run (dense_machine O sh_new card) prog s (start_config dv_new)) in
  forall i h k n, d_env c i h = Some (k, n) -> exists sh, d_cells c k = CFull n sh.
Proof. exact @dense_one_metric. Qed.
Print Assumptions C54_same_metric.

(** The metric of a label is made once: it is never replaced. *)
Theorem C54_once : forall Sh Op Res Mic V St (O : machine Sh Op Res Mic) sh_new (view : Sh -> V) spec (st_new : St) aview,
  good_metric O sh_new view spec st_new aview -> forall card prog s s' k n sh,
  d_cells (c_sh (run (dense_machine O sh_new card) prog s (start_config dv_new))) k = CFull n sh ->
  exists sh', d_cells (c_sh (run (dense_machine O sh_new card) prog (s ++ s') (start_config dv_new))) k = CFull n sh'.
Proof. exact @dense_once. Qed.
Print Assumptions C54_once.

(** No call panics for a label of the set. *)
Theorem C54_no_panic : forall Sh Op Res Mic V St (O : machine Sh Op Res Mic) sh_new (view : Sh -> V) spec (st_new : St) aview,
  good_metric O sh_new view spec st_new aview -> forall card prog s i op r,
  In (op, r) (t_done (c_th (run (dense_machine O sh_new card) prog s (start_config dv_new)) i)) ->
  r <> DDangling /\ (r = DPanic -> exists h k, op = DGet h k /\ (card <= k)%nat).
Proof. exact @dense_results. Qed.
Print Assumptions C54_no_panic.

(** A vec of any such metric behaves like an array changed by one call at a time. *)
Theorem C54_linearizable : forall Sh Op Res Mic V St (O : machine Sh Op Res Mic) sh_new (view : Sh -> V) spec (st_new : St) aview,
  good_metric O sh_new view spec st_new aview -> forall card prog,
  exists L : schedule -> list (@entry (dense_op Op) (dense_res Res)),
    real_time_order L (fun s => run (dense_machine O sh_new card) prog s (start_config dv_new)) /\
    forall s, let c := run (dense_machine O sh_new card) prog s (start_config dv_new) in
      explains (L s) c /\
      exists a, legal (dense_spec spec st_new card) ad_new (L s) a /\
        (quiescent c -> forall k, option_map view (dense_lookup k (c_sh c)) = option_map aview (ad_tab a k)).
Proof. exact @dense_linearizable. Qed.
Print Assumptions C54_linearizable.

(** No increment is lost: a counter is the sum of the increments made under its label. *)
Theorem C54_no_lost_increment : forall card prog s n k,
  let c := run (dense_counter_vec card) prog s (start_config dv_new) in
  quiescent c -> (forall i, (n <= i)%nat -> t_done (c_th c i) = []) ->
  Z.of_N (match dense_lookup k (c_sh c) with Some v => v | None => 0 end) =
  (total_flow (dense_flow (fun u (_ : N) => counter_delta u) k) n c mod 2 ^ 64)%Z.
Proof. exact dense_counter_total. Qed.
Print Assumptions C54_no_lost_increment.

Theorem C54_no_lost_observation : forall card nb prog s n k,
  let c := run (dense_hist_vec nb card) prog s (start_config dv_new) in
  quiescent c -> (forall i, (n <= i)%nat -> t_done (c_th c i) = []) ->
  (match dense_lookup k (c_sh c) with Some h => hist_count (hist_view (ch_state h)) | None => 0 end mod 2 ^ 64 =
   total_flow (dense_flow hist_added k) n c mod 2 ^ 64)%Z.
Proof. exact dense_hist_total. Qed.
Print Assumptions C54_no_lost_observation.

(** In the order in which the calls took effect: reads return what was counted,
    and a collection finds exactly the metrics that were asked for. *)
Theorem C54_order : forall card prog, exists L : schedule -> list (@entry (dense_op counter_op) (dense_res N)),
  real_time_order L (fun s => run (dense_counter_vec card) prog s (start_config dv_new)) /\
  forall s, explains (L s) (run (dense_counter_vec card) prog s (start_config dv_new)) /\
    (forall pre i h k r post, L s = pre ++ (i, DUse h k KRead, DVal r) :: post ->
       Z.of_N r = (sum_over (fun e => dense_flow (fun u (_ : N) => counter_delta u) k (snd (fst e), snd e)) pre mod 2 ^ 64)%Z) /\
    (forall pre i h k b post, L s = pre ++ (i, DPeek h k, DFound b) :: post -> b = asked k pre).
Proof. exact dense_counter_order. Qed.
Print Assumptions C54_order.

Theorem C54_snapshots : forall card nb prog, exists L : schedule -> list (@entry (dense_op hist_op) (dense_res hist_res)),
  real_time_order L (fun s => run (dense_hist_vec nb card) prog s (start_config dv_new)) /\
  forall s, explains (L s) (run (dense_hist_vec nb card) prog s (start_config dv_new)) /\
    ((forall i h k b x r, In (i, DUse h k (HObserve b x), r) (L s) -> (b <= nb)%nat) ->
     forall pre i h k r post, L s = pre ++ (i, DUse h k HSample, DVal r) :: post ->
       exists hs, observe_seq (observations (on_cell k pre)) (hist_new nb) = Done hs /\ r = Some (hist_view hs)).
Proof. exact dense_hist_snapshots. Qed.
Print Assumptions C54_snapshots.

(** Thread 1 waits while thread 0 makes the metric; both get it; nothing is lost. *)
Example C54_nonvacuous :
  (forall i, t_cur (c_th ex_dvec_end i) = None) /\ (forall i, (4 <= i)%nat -> t_done (c_th ex_dvec_end i) = []) /\
  d_cells (c_sh (ex_dvec_run 10)) 2 = CBusy 0 /\ map fst (match t_cur (c_th (ex_dvec_run 10) 1) with Some x => [x] | None => [] end) = [DGet 0 2] /\
  d_env (c_sh ex_dvec_end) 0 0 = Some (2, 0)%nat /\ d_env (c_sh ex_dvec_end) 1 0 = Some (2, 0)%nat /\
  dense_lookup 2 (c_sh ex_dvec_end) = Some 111%N /\
  map snd (t_done (c_th ex_dvec_end 1)) = [DUnit; DVal 0%N; DVal 111%N] /\
  map snd (t_done (c_th ex_dvec_end 2)) =
    [DFound false; DFound true; DFound true; DFound true; DFound true; DFound false; DVal 111%N] /\
  map snd (t_done (c_th ex_dvec_end 3)) = [DPanic].
Proof.
  assert (U : forall i, (4 <= i)%nat -> c_th ex_dvec_end i = {| t_cur := None; t_done := [] |}).
  { intros i L. exact (untouched _ _ _ _ (dense_counter_vec 3) (calls (at_nat ex_dvec_calls)) ex_dvec_schedule
      (start_config dv_new) 4 i eq_refl L). }
  split; [|split; [intros i L; now rewrite (U i L)|]].
  - intros i. destruct (Nat.le_gt_cases 4 i) as [L|L]; [now rewrite (U i L)|].
    destruct i as [|[|[|[|i]]]]; [vm_compute; reflexivity..|lia].
  - do 7 (split; [vm_compute; reflexivity|]). vm_compute. reflexivity.
Qed.

Example C54_histogram_nonvacuous :
  option_map (fun h => hist_view (ch_state h)) (dense_lookup 1 (c_sh ex_dhist_end)) = Some ([1; 0], 1, f_add f_half f_three)%N /\
  map snd (t_done (c_th ex_dhist_end 1)) = [DUnit; DVal (Some ([], 0, 0)%N); DVal (Some ([1; 0], 1, f_add f_half f_three)%N)].
Proof. split; vm_compute; reflexivity. Qed.
