(** Property C74: collections of a shared vec, one after the other.  [w] has the
    label set and the shards, [m] is the metric, [P] says what each thread calls
    next.  By the end of the schedule [s0] thread [i0] has collected [l0]; thread
    [i] collects afterwards, while the others go on with [s1]. *)
From Coq Require Import String List NArith ZArith Bool Arith Lia.
From Verif Require Import Base FloatModel MetricModel MetricExamples LabelModel LabelSpec ConcModel ConcSpec ConcExamples ConcVecModel ConcVecSpec
  ConcVecTheorems ConcVecExamples ConcLabelModel ConcLabelSpec ConcLabelExamples ConcCallModel ConcCallSpec ConcCallTheorems ConcCallOrder ConcCallExamples P_ConcCall
  GroupProofs LawProofs ConcDenseModel ConcDenseSpec ConcDenseCallModel ConcDenseCallSpec ConcDenseCallProofs ConcDenseCallTheorems ConcDenseOrder ConcDenseCallExamples P_ConcDenseCall.
Import ListNotations.

(** A group once collected is collected again, if nobody deletes it. *)
Theorem C74_still : forall Sh Op Res Mic V St w (m : metric_code Sh Op Res Mic V) spec (st_new : St) aview (P : call_program Op Res V),
  setup_ok w -> calls_shaped (su_fields w) P -> good_metric (mc_machine m) (mc_new m) (mc_view m) spec st_new aview ->
  (forall k, (su_shard_of w k < su_shards w)%nat) -> forall g, (forall j hd, P j hd <> Some (CDelete g)) ->
  forall s0 s1 i tr rest, call_underway w m P s0 i = None ->
  finished_calls w m P (s0 ++ s1) i = finished_calls w m P s0 i ++ (CCollect, tr) :: rest ->
  forall i0 tr0, In (CCollect, tr0) (finished_calls w m P s0 i0) ->
  forall l0 r0, result_of CCollect tr0 = Collected l0 -> In (g, r0) l0 ->
  exists l r, result_of CCollect tr = Collected l /\ In (g, r) l.
Proof. exact @all_still. Qed.
Print Assumptions C74_still.

(** What is reported for it comes from what was reported before by further calls
    on the same metric. *)
Theorem C74_lineage : forall Sh Op Res Mic V St w (m : metric_code Sh Op Res Mic V) spec (st_new : St) aview (P : call_program Op Res V),
  setup_ok w -> calls_shaped (su_fields w) P -> good_metric (mc_machine m) (mc_new m) (mc_view m) spec st_new aview ->
  forall g, (forall j hd, P j hd <> Some (CDelete g)) ->
  forall s0 s1 i tr rest, call_underway w m P s0 i = None ->
  finished_calls w m P (s0 ++ s1) i = finished_calls w m P s0 i ++ (CCollect, tr) :: rest ->
  forall i0 tr0, In (CCollect, tr0) (finished_calls w m P s0 i0) ->
  forall l0 r0, result_of CCollect tr0 = Collected l0 -> In (g, r0) l0 ->
  forall l r, result_of CCollect tr = Collected l -> In (g, r) l ->
  exists before x x' between y y', legal spec st_new before x /\ spec i0 (mc_read m) x = Some (x', r0) /\
    legal spec x' between y /\ spec i (mc_read m) y = Some (y', r).
Proof. exact @all_lineage. Qed.
Print Assumptions C74_lineage.

(** A counter never goes back, unless it passes 2^64. *)
Theorem C74_counters : forall w (P : call_program counter_op N N), setup_ok w -> calls_shaped (su_fields w) P ->
  (forall k, (su_shard_of w k < su_shards w)%nat) -> forall g, (forall j hd, P j hd <> Some (CDelete g)) ->
  forall s0 s1 i tr rest n, call_underway w counter_code P s0 i = None ->
  finished_calls w counter_code P (s0 ++ s1) i = finished_calls w counter_code P s0 i ++ (CCollect, tr) :: rest ->
  (forall j, (n <= j)%nat -> finished_calls w counter_code P (s0 ++ s1) j = [] /\ call_underway w counter_code P (s0 ++ s1) j = None) ->
  (sum_begun w counter_code P (fun u _ => counter_delta u) Z.of_N counter_delta g n (s0 ++ s1) < 2 ^ 64)%Z ->
  forall i0 tr0 l0 r0, In (CCollect, tr0) (finished_calls w counter_code P s0 i0) -> result_of CCollect tr0 = Collected l0 -> In (g, r0) l0 ->
  exists l, result_of CCollect tr = Collected l /\ (exists r, In (g, r) l) /\ forall r, In (g, r) l -> (r0 <= r)%N.
Proof. exact counter_later. Qed.
Print Assumptions C74_counters.

(** Neither does any bucket of a histogram. *)
Theorem C74_histograms : forall b w (P : hist_calls), setup_ok w -> calls_shaped (su_fields w) P ->
  (forall k, (su_shard_of w k < su_shards w)%nat) -> forall g, (forall j hd, P j hd <> Some (CDelete g)) ->
  forall s0 s1 i tr rest n, call_underway w (hist_code b) P s0 i = None ->
  finished_calls w (hist_code b) P (s0 ++ s1) i = finished_calls w (hist_code b) P s0 i ++ (CCollect, tr) :: rest ->
  (forall j, (n <= j)%nat -> finished_calls w (hist_code b) P (s0 ++ s1) j = [] /\ call_underway w (hist_code b) P (s0 ++ s1) j = None) ->
  (sum_begun w (hist_code b) P hist_added hist_count hist_most g n (s0 ++ s1) < 2 ^ 64)%Z ->
  forall i0 tr0 l0 r0, In (CCollect, tr0) (finished_calls w (hist_code b) P s0 i0) -> result_of CCollect tr0 = Collected l0 -> In (g, r0) l0 ->
  exists l, result_of CCollect tr = Collected l /\ (exists r, In (g, r) l) /\
    forall r, In (g, r) l -> exists bs0 inf0 sum0 bs inf sum, r0 = Some (bs0, inf0, sum0) /\ r = Some (bs, inf, sum) /\
      Forall2 N.le bs0 bs /\ (inf0 <= inf)%N.
Proof. exact hist_later. Qed.
Print Assumptions C74_histograms.

(** Thread 1 collects 11 for bob; thread 2 then collects 15 while two threads count. *)
Example C74_hypotheses : calls_shaped ex_lfields ex_order_program /\ calls_shaped ex_lfields ex_horder_program /\
  (forall j hd, ex_order_program j hd <> Some (CDelete ex_bob)) /\ (forall j hd, ex_horder_program j hd <> Some (CDelete ex_bob)).
Proof.
  split; [|split; [|split]].
  - intros i hd call g H G. unfold ex_order_program, in_turn in H. destruct (in_turn_in _ _ _ _ _ H) as (l & L & C).
    cbn in L. repeat (destruct L as [<-|L]; [cbn in C; repeat (destruct C as [<-|C]; [cbn in G; try discriminate G; injection G as <-; reflexivity|]); contradiction|]). contradiction.
  - intros i hd call g H G. unfold ex_horder_program, in_turn in H. destruct (in_turn_in _ _ _ _ _ H) as (l & L & C).
    cbn in L. repeat (destruct L as [<-|L]; [cbn in C; repeat (destruct C as [<-|C]; [cbn in G; try discriminate G; injection G as <-; reflexivity|]); contradiction|]). contradiction.
  - intros j hd H. unfold ex_order_program, in_turn in H. destruct (in_turn_in _ _ _ _ _ H) as (l & L & C).
    cbn in L. repeat (destruct L as [<-|L]; [cbn in C; repeat (destruct C as [C|C]; [discriminate C|]); contradiction|]). contradiction.
  - intros j hd H. unfold ex_horder_program, in_turn in H. destruct (in_turn_in _ _ _ _ _ H) as (l & L & C).
    cbn in L. repeat (destruct L as [<-|L]; [cbn in C; repeat (destruct C as [C|C]; [discriminate C|]); contradiction|]). contradiction.
Qed.

Example C74_case : let s := ex_first ++ ex_second in
  ex_order_results ex_first 1 = [Collected [(ex_bob, 11)]]%N /\ ex_order_results ex_first 2 = [Collected [(ex_bob, 11)]]%N /\
  call_underway ex_setup counter_code ex_order_program ex_first 2 = None /\
  ex_order_results s 2 = [Collected [(ex_bob, 11)]; Collected [(ex_bob, 15)]]%N /\
  sum_finished ex_setup counter_code ex_order_program ex_count_add Z.of_N ex_bob 3 s = 15%Z /\
  sum_begun ex_setup counter_code ex_order_program ex_count_add Z.of_N counter_delta ex_bob 3 s = 17%Z.
Proof. vm_compute. repeat split. Qed.

(** So the theorem applies and says that 11 <= 15. *)
Example C74_applied : exists l, In (Collected l) (ex_order_results (ex_first ++ ex_second) 2) /\
  (exists r, In (ex_bob, r) l) /\ forall r, In (ex_bob, r) l -> (11 <= r)%N.
Proof.
  destruct C64_hypotheses as (OK & _ & _ & RG & _). destruct C74_hypotheses as (SH & _ & KP & _).
  set (tr := snd (nth 1 (finished_calls ex_setup counter_code ex_order_program (ex_first ++ ex_second) 2) (CCollect, []))).
  set (tr0 := snd (nth 0 (finished_calls ex_setup counter_code ex_order_program ex_first 1) (CCollect, []))).
  assert (E : finished_calls ex_setup counter_code ex_order_program (ex_first ++ ex_second) 2 =
    finished_calls ex_setup counter_code ex_order_program ex_first 2 ++ (CCollect, tr) :: []) by (vm_compute; reflexivity).
  assert (I0 : finished_calls ex_setup counter_code ex_order_program ex_first 1 = [(CCollect, tr0)]) by (vm_compute; reflexivity).
  assert (R0 : result_of CCollect tr0 = Collected [(ex_bob, 11%N)]) by (vm_compute; reflexivity).
  clearbody tr tr0.
  destruct (C74_counters ex_setup ex_order_program OK SH RG ex_bob KP ex_first ex_second 2 tr [] 3) with (i0 := 1%nat) (tr0 := tr0) (l0 := [(ex_bob, 11%N)]) (r0 := 11%N)
    as (l & RC & X); [vm_compute; reflexivity|exact E| |vm_compute; reflexivity|rewrite I0; now left|exact R0|now left|].
  - intros j L. now apply (never_ran _ _ _ _ _ _ _ _ _ 3).
  - exists l. split; [|exact X]. unfold ex_order_results. rewrite E, map_app. apply in_or_app. right. left. exact RC.
Qed.

Example C74_histogram_case : let s := ex_hfirst ++ ex_hsecond in
  ex_horder_results ex_hfirst 1 = [Collected [(ex_bob, Some ([1; 0], 0, 4602678819172646912))]]%N /\
  call_underway ex_setup (hist_code 2) ex_horder_program ex_hfirst 2 = None /\
  ex_horder_results s 2 = (ex_horder_results ex_hfirst 2 ++ [Collected [(ex_bob, Some ([1; 2], 2, 4622100592565682176))]])%N /\
  sum_begun ex_setup (hist_code 2) ex_horder_program hist_added hist_count hist_most ex_bob 3 s = 5%Z.
Proof. vm_compute. repeat split. Qed.

(** After a deletion the count starts again, so it may go back: 5, then 1. *)
Example C74_deleted : ex_order_results ex_again_schedule 2 =
  [Collected [(ex_ann, 5); (ex_bob, 16)]; Collected [(ex_ann, 1); (ex_bob, 17)]]%N.
Proof. vm_compute. reflexivity. Qed.

(** The same for dense vecs, where nothing can be deleted. *)
Theorem C74_dense_still : forall (L : lgset) Sh Op Res Mic V St wt (w : dense_setup L) (m : metric_code Sh Op Res Mic V) spec (st_new : St) aview
  (P : dense_program L Op Res),
  dense_ok_setup L wt w -> dense_shaped wt w P -> good_metric (mc_machine m) (mc_new m) (mc_view m) spec st_new aview ->
  forall s0 s1 i tr rest, dense_underway w m P s0 i = None ->
  dense_finished w m P (s0 ++ s1) i = dense_finished w m P s0 i ++ (ECollect, tr) :: rest ->
  forall i0 tr0, In (ECollect, tr0) (dense_finished w m P s0 i0) ->
  forall l0 g r0, dense_result_of ECollect tr0 = DCollected l0 -> In (g, r0) l0 ->
  exists l r, dense_result_of ECollect tr = DCollected l /\ In (g, r) l.
Proof. exact @dense_still. Qed.
Print Assumptions C74_dense_still.

Theorem C74_dense_lineage : forall (L : lgset) Sh Op Res Mic V St wt (w : dense_setup L) (m : metric_code Sh Op Res Mic V) spec (st_new : St) aview
  (P : dense_program L Op Res),
  dense_ok_setup L wt w -> dense_shaped wt w P -> good_metric (mc_machine m) (mc_new m) (mc_view m) spec st_new aview ->
  (forall a b : lg_group L, {a = b} + {a <> b}) ->
  forall s0 s1 i tr rest, dense_underway w m P s0 i = None ->
  dense_finished w m P (s0 ++ s1) i = dense_finished w m P s0 i ++ (ECollect, tr) :: rest ->
  forall i0 tr0, In (ECollect, tr0) (dense_finished w m P s0 i0) ->
  forall l0 g r0, dense_result_of ECollect tr0 = DCollected l0 -> In (g, r0) l0 ->
  forall l r, dense_result_of ECollect tr = DCollected l -> In (g, r) l ->
  exists before x x' between y y', legal spec st_new before x /\ spec i0 (mc_read m) x = Some (x', r0) /\
    legal spec x' between y /\ spec i (mc_read m) y = Some (y', r).
Proof. exact @dense_lineage. Qed.
Print Assumptions C74_dense_lineage.

Theorem C74_dense_counters : forall (L : lgset) wt (w : dense_setup L) (geq : forall a b : lg_group L, {a = b} + {a <> b}),
  dense_ok_setup L wt w -> forall P : dense_program L counter_op N, dense_shaped wt w P ->
  forall s0 s1 i tr rest n, dense_underway w counter_code P s0 i = None ->
  dense_finished w counter_code P (s0 ++ s1) i = dense_finished w counter_code P s0 i ++ (ECollect, tr) :: rest ->
  (forall j, (n <= j)%nat -> dense_finished w counter_code P (s0 ++ s1) j = [] /\ dense_underway w counter_code P (s0 ++ s1) j = None) ->
  forall i0 tr0 l0 g r0, In (ECollect, tr0) (dense_finished w counter_code P s0 i0) -> dense_result_of ECollect tr0 = DCollected l0 -> In (g, r0) l0 ->
  (dense_sum_begun w counter_code P geq (fun u _ => counter_delta u) counter_delta g n (s0 ++ s1) < 2 ^ 64)%Z ->
  exists l, dense_result_of ECollect tr = DCollected l /\ (exists r, In (g, r) l) /\ forall r, In (g, r) l -> (r0 <= r)%N.
Proof. exact @dense_counter_later. Qed.
Print Assumptions C74_dense_counters.

Theorem C74_dense_histograms : forall (L : lgset) wt (w : dense_setup L) (geq : forall a b : lg_group L, {a = b} + {a <> b}),
  dense_ok_setup L wt w -> forall b (P : dense_program L hist_op hist_res), dense_shaped wt w P ->
  forall s0 s1 i tr rest n, dense_underway w (hist_code b) P s0 i = None ->
  dense_finished w (hist_code b) P (s0 ++ s1) i = dense_finished w (hist_code b) P s0 i ++ (ECollect, tr) :: rest ->
  (forall j, (n <= j)%nat -> dense_finished w (hist_code b) P (s0 ++ s1) j = [] /\ dense_underway w (hist_code b) P (s0 ++ s1) j = None) ->
  forall i0 tr0 l0 g r0, In (ECollect, tr0) (dense_finished w (hist_code b) P s0 i0) -> dense_result_of ECollect tr0 = DCollected l0 -> In (g, r0) l0 ->
  (dense_sum_begun w (hist_code b) P geq hist_added hist_most g n (s0 ++ s1) < 2 ^ 64)%Z ->
  exists l, dense_result_of ECollect tr = DCollected l /\ (exists r, In (g, r) l) /\
    forall r, In (g, r) l -> exists bs0 inf0 sum0 bs inf sum, r0 = Some (bs0, inf0, sum0) /\ r = Some (bs, inf, sum) /\
      Forall2 N.le bs0 bs /\ (inf0 <= inf)%N.
Proof. exact @dense_hist_later. Qed.
Print Assumptions C74_dense_histograms.

(** get_cardinality of a dense vec never goes back either. *)
Theorem C74_dense_counts : forall (L : lgset) Sh Op Res Mic V St wt (w : dense_setup L) (m : metric_code Sh Op Res Mic V) spec (st_new : St) aview
  (P : dense_program L Op Res),
  dense_ok_setup L wt w -> dense_shaped wt w P -> good_metric (mc_machine m) (mc_new m) (mc_view m) spec st_new aview ->
  forall s0 s1 i tr rest, dense_underway w m P s0 i = None ->
  dense_finished w m P (s0 ++ s1) i = dense_finished w m P s0 i ++ (ECount, tr) :: rest ->
  forall i0 tr0 n0, In (ECount, tr0) (dense_finished w m P s0 i0) -> dense_result_of ECount tr0 = DCounted n0 ->
  exists n, dense_result_of ECount tr = DCounted n /\ (n0 <= n)%nat.
Proof. exact @counts_later. Qed.
Print Assumptions C74_dense_counts.

(** Thread 1 collects while an update is underway, which it shows as 0, and counts
    two groups; thread 2 collects and counts afterwards. *)
Example C74_dense_hypotheses : dense_shaped ex_dense_wt ex_dense_setup ex_dorder_program /\ dense_shaped ex_dense_wt ex_dense_setup ex_dhorder_program.
Proof.
  split.
  - intros i hd call g H G. unfold ex_dorder_program, dense_in_turn in H. destruct (in_turn_in _ _ _ _ _ H) as (l & IL & C).
    cbn in IL. repeat (destruct IL as [<-|IL]; [cbn in C; repeat (destruct C as [<-|C]; [cbn in G; try discriminate G; injection G as <-; reflexivity|]); contradiction|]). contradiction.
  - intros i hd call g H G. unfold ex_dhorder_program, dense_in_turn in H. destruct (in_turn_in _ _ _ _ _ H) as (l & IL & C).
    cbn in IL. repeat (destruct IL as [<-|IL]; [cbn in C; repeat (destruct C as [<-|C]; [cbn in G; try discriminate G; injection G as <-; reflexivity|]); contradiction|]). contradiction.
Qed.

Example C74_dense_case : let s := ex_dfirst ++ ex_dsecond in
  ex_dorder_results ex_dfirst 1 = [DCollected [(ex_get_a, 1%N); (ex_del_a, 0%N)]; DCounted 2] /\
  ex_dorder_results ex_dfirst 2 = [] /\ dense_underway ex_dense_setup counter_code ex_dorder_program ex_dfirst 2 = None /\
  ex_dorder_results s 2 = [DCollected [(ex_get_a, 3%N); (ex_put_b, 1%N); (ex_del_a, 11%N)]] /\
  dense_sum_begun ex_dense_setup counter_code ex_dorder_program group_eq_dec ex_count_add counter_delta ex_get_a 3 s = 4%Z /\
  dense_underway ex_dense_setup counter_code ex_dorder_program s 2 = None /\
  nth 1 (ex_dorder_results (s ++ ex_dthird) 2) DFailed = DCounted 3.
Proof. vm_conj. Qed.

Example C74_dense_histogram_case : let s := ex_dhfirst ++ ex_dhsecond in
  ex_dhorder_results ex_dhfirst 1 = [DCollected [(ex_get_a, Some ([1; 0], 0, 4602678819172646912))]]%N /\
  ex_dhorder_results ex_dhfirst 2 = [] /\ dense_underway ex_dense_setup (hist_code 2) ex_dhorder_program ex_dhfirst 2 = None /\
  ex_dhorder_results s 2 = [DCollected [(ex_get_a, Some ([1; 2], 0, 4616752568008179712))]]%N /\
  dense_sum_begun ex_dense_setup (hist_code 2) ex_dhorder_program group_eq_dec hist_added hist_most ex_get_a 3 s = 4%Z.
Proof. vm_conj. Qed.
