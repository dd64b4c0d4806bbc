(** Property C68: whole calls made by threads on one dense vec.  [w] has the
    label set and the number of cells, [m] is the metric, [P] says what each
    thread calls next, [s] is any schedule, [wt] are the groups of the right type. *)
From Coq Require Import String List NArith ZArith Bool Arith Lia Sorted.
From Verif Require Import Base BaseFacts FloatModel MetricModel MetricExamples LabelModel LabelSpec LabelProofs GroupProofs LawProofs ConcModel ConcSpec ConcExamples ConcVecSpec
  ConcVecTheorems ConcVecExamples ConcDenseModel ConcDenseSpec ConcCallModel ConcCallSpec ConcCallTheorems ConcCallExamples
  ConcDenseCallModel ConcDenseCallSpec ConcDenseCallProofs ConcDenseCallTheorems ConcDenseCallExamples ConcWithinDense.
Import ListNotations.

(** What the theorems below ask of a label set holds for derived sets, enum sets
    and all compositions of them, if they have a cardinality. *)
Theorem C68_sets : forall bd t ls c, tree_ok bd t ls -> lg_cardinality (lgset_of bd t) ls = Some c ->
  fixed_label_set (lgset_of bd t) (tree_wt bd t) ls c.
Proof. exact trees_fixed. Qed.
Print Assumptions C68_sets.

Example C68_sets_case :
  let t := CPair (CPair CDerived CStatic) CDerived in
  let ls := ((ex_fixed_set, ex_enum), ex_fixed_set) in
  tree_ok Debug t ls /\ lg_cardinality (lgset_of Debug t) ls = Some 108%N /\
  lg_encode (lgset_of Debug t) ls ((ex_del_a, [80%N]), ex_put_b) = Done (ls, Some (((4%N, []), 1%N), (3%N, []))).
Proof.
  simpl. assert (sound_set ex_fixed_set).
  { split; [apply wf_group_check; reflexivity|split; reflexivity]. }
  split; [|split; reflexivity]. split; [split|]; [exact H|split; [apply nodupb_NoDup; reflexivity|reflexivity]|exact H].
Qed.

(** A call does what it is for, or is refused, and then because the label set
    does not have the group.  Nothing else panics, and nothing is removed. *)
Theorem C68_results : forall (L : lgset) Sh Op Res Mic V St wt (w : dense_setup L) (m : metric_code Sh Op Res Mic V) spec (st_new : St) aview
  (P : dense_program L Op Res),
  dense_ok_setup L wt w -> dense_shaped wt w P -> good_metric (mc_machine m) (mc_new m) (mc_view m) spec st_new aview ->
  forall s i call tr, In (call, tr) (dense_finished w m P s i) ->
  match dense_result_of call tr with
  | DReturned _ => exists g u k, call = EUpdate g u /\ dense_id wt w g k
  | DNotRemoved => exists g k, call = EDelete g /\ dense_id wt w g k
  | DCollected _ => call = ECollect
  | DCounted _ => call = ECount
  | DRefused => exists g, dense_group call = Some g /\ lg_encode L (dn_set w) g = Done (dn_set w, None)
  | DFailed => False
  end.
Proof. exact @call_results. Qed.
Print Assumptions C68_results.

(** No increment is lost. *)
Theorem C68_counter_totals : forall (L : lgset) wt (w : dense_setup L) (geq : forall a b : lg_group L, {a = b} + {a <> b}),
  dense_ok_setup L wt w -> forall P : dense_program L counter_op N, dense_shaped wt w P ->
  forall s n g k, dense_nobody_busy w counter_code P s -> (forall i, (n <= i)%nat -> dense_finished w counter_code P s i = []) ->
  dense_id wt w g k ->
  Z.of_N (match dense_metric_at w counter_code P s k with Some v => v | None => 0 end) =
  (dense_sum_finished w counter_code P geq (fun u _ => counter_delta u) g n s mod 2 ^ 64)%Z.
Proof. exact @dense_counter_totals. Qed.
Print Assumptions C68_counter_totals.

Theorem C68_histogram_totals : forall (L : lgset) wt (w : dense_setup L) (geq : forall a b : lg_group L, {a = b} + {a <> b}),
  dense_ok_setup L wt w -> forall b (P : dense_program L hist_op hist_res), dense_shaped wt w P ->
  forall s n g k, dense_nobody_busy w (hist_code b) P s -> (forall i, (n <= i)%nat -> dense_finished w (hist_code b) P s i = []) ->
  dense_id wt w g k ->
  (match dense_metric_at w (hist_code b) P s k with Some h => hist_count (hist_view (ch_state h)) | None => 0 end mod 2 ^ 64 =
   dense_sum_finished w (hist_code b) P geq hist_added g n s mod 2 ^ 64)%Z.
Proof. exact @dense_hist_totals. Qed.
Print Assumptions C68_histogram_totals.

(** The cells with a metric are those of the groups some call has updated. *)
Theorem C68_rows : forall (L : lgset) Sh Op Res Mic V St wt (w : dense_setup L) (m : metric_code Sh Op Res Mic V) spec (st_new : St) aview
  (P : dense_program L Op Res),
  dense_ok_setup L wt w -> dense_shaped wt w P -> good_metric (mc_machine m) (mc_new m) (mc_view m) spec st_new aview ->
  forall s, dense_nobody_busy w m P s -> forall k, dense_metric_at w m P s k <> None <->
  exists g u j tr r, In (EUpdate g u, tr) (dense_finished w m P s j) /\ dense_result_of (EUpdate g u) tr = DReturned r /\ dense_id wt w g k.
Proof. exact @dense_rows. Qed.
Print Assumptions C68_rows.

(** A collection reports groups in the order of the label set, each at most once,
    and only groups that someone has begun to update. *)
Theorem C68_collections : forall (L : lgset) Sh Op Res Mic V St wt (w : dense_setup L) (m : metric_code Sh Op Res Mic V) spec (st_new : St) aview
  (P : dense_program L Op Res),
  dense_ok_setup L wt w -> dense_shaped wt w P -> good_metric (mc_machine m) (mc_new m) (mc_view m) spec st_new aview ->
  forall s i tr, In (ECollect, tr) (dense_finished w m P s i) -> exists l ks, dense_result_of ECollect tr = DCollected l /\
    Forall2 (fun p k => dense_id wt w (fst p) k) l ks /\ StronglySorted lt ks /\
    forall g r, In (g, r) l -> exists j u, dense_begun w m P s j (EUpdate g u).
Proof. exact @collections. Qed.
Print Assumptions C68_collections.

(** A collection that starts after an update of a group has returned reports the
    group: nothing can be deleted. *)
Theorem C68_shown : forall (L : lgset) Sh Op Res Mic V St wt (w : dense_setup L) (m : metric_code Sh Op Res Mic V) spec (st_new : St) aview
  (P : dense_program L Op Res),
  dense_ok_setup L wt w -> dense_shaped wt w P -> good_metric (mc_machine m) (mc_new m) (mc_view m) spec st_new aview ->
  forall s0 s1 i tr rest, dense_underway w m P s0 i = None ->
  dense_finished w m P (s0 ++ s1) i = dense_finished w m P s0 i ++ (ECollect, tr) :: rest ->
  forall j g u t r, In (EUpdate g u, t) (dense_finished w m P s0 j) -> dense_result_of (EUpdate g u) t = DReturned r ->
  exists l r', dense_result_of ECollect tr = DCollected l /\ In (g, r') l.
Proof. exact @shown. Qed.
Print Assumptions C68_shown.

(** What it reports for a counter lies between what had been added when the
    collection began and what calls begun before it ended may have added. *)
Theorem C68_counter_bracket : forall (L : lgset) wt (w : dense_setup L) (geq : forall a b : lg_group L, {a = b} + {a <> b}),
  dense_ok_setup L wt w -> forall P : dense_program L counter_op N, dense_shaped wt w P ->
  forall s0 s1 i tr rest n, dense_underway w counter_code P s0 i = None ->
  dense_finished w counter_code P (s0 ++ s1) i = dense_finished w counter_code P s0 i ++ (ECollect, tr) :: rest ->
  (forall j, (n <= j)%nat -> dense_finished w counter_code P (s0 ++ s1) j = [] /\ dense_underway w counter_code P (s0 ++ s1) j = None) ->
  forall l g r, dense_result_of ECollect tr = DCollected l -> In (g, r) l ->
  (dense_sum_begun w counter_code P geq (fun u _ => counter_delta u) counter_delta g n (s0 ++ s1) < 2 ^ 64)%Z ->
  (dense_sum_finished w counter_code P geq (fun u _ => counter_delta u) g n s0 <= Z.of_N r <=
   dense_sum_begun w counter_code P geq (fun u _ => counter_delta u) counter_delta g n (s0 ++ s1))%Z.
Proof. exact @dense_counter_brackets. Qed.
Print Assumptions C68_counter_bracket.

Theorem C68_histogram_bracket : forall (L : lgset) wt (w : dense_setup L) (geq : forall a b : lg_group L, {a = b} + {a <> b}),
  dense_ok_setup L wt w -> forall b (P : dense_program L hist_op hist_res), dense_shaped wt w P ->
  forall s0 s1 i tr rest n, dense_underway w (hist_code b) P s0 i = None ->
  dense_finished w (hist_code b) P (s0 ++ s1) i = dense_finished w (hist_code b) P s0 i ++ (ECollect, tr) :: rest ->
  (forall j, (n <= j)%nat -> dense_finished w (hist_code b) P (s0 ++ s1) j = [] /\ dense_underway w (hist_code b) P (s0 ++ s1) j = None) ->
  forall l g r, dense_result_of ECollect tr = DCollected l -> In (g, r) l ->
  (dense_sum_begun w (hist_code b) P geq hist_added hist_most g n (s0 ++ s1) < 2 ^ 64)%Z ->
  exists v, r = Some v /\ length (fst (fst v)) = b /\
    (dense_sum_finished w (hist_code b) P geq hist_added g n s0 <= hist_count v <=
     dense_sum_begun w (hist_code b) P geq hist_added hist_most g n (s0 ++ s1))%Z.
Proof. exact @dense_hist_brackets_exact. Qed.
Print Assumptions C68_histogram_bracket.

(** get_cardinality counts every group updated before it began, no group that
    nobody has begun to update by its end, and no more than the set has. *)
Theorem C68_count : forall (L : lgset) Sh Op Res Mic V St wt (w : dense_setup L) (m : metric_code Sh Op Res Mic V) spec (st_new : St) aview
  (P : dense_program L Op Res),
  dense_ok_setup L wt w -> dense_shaped wt w P -> good_metric (mc_machine m) (mc_new m) (mc_view m) spec st_new aview ->
  forall s0 s1 i tr rest, dense_underway w m P s0 i = None ->
  dense_finished w m P (s0 ++ s1) i = dense_finished w m P s0 i ++ (ECount, tr) :: rest ->
  exists n, dense_result_of ECount tr = DCounted n /\ (n <= dn_cells w)%nat /\
  (forall gs, NoDup gs ->
     (forall g, In g gs -> exists j u t r, In (EUpdate g u, t) (dense_finished w m P s0 j) /\ dense_result_of (EUpdate g u) t = DReturned r) ->
     (List.length gs <= n)%nat) /\
  exists gs, NoDup gs /\ List.length gs = n /\ forall g, In g gs -> exists j u, dense_begun w m P (s0 ++ s1) j (EUpdate g u).
Proof. exact @counts. Qed.
Print Assumptions C68_count.

(** Three threads on a vec of six cells. *)
Example C68_hypotheses : dense_ok_setup (derived_lgset Debug) ex_dense_wt ex_dense_setup /\
  dense_shaped ex_dense_wt ex_dense_setup ex_dense_program /\ dense_shaped ex_dense_wt ex_dense_setup ex_dense_hist_program.
Proof.
  split; [|split].
  - apply (trees_fixed Debug CDerived); [|reflexivity]. split; [apply wf_group_check; reflexivity|split; reflexivity].
  - intros i hd call g H G. unfold ex_dense_program, dense_in_turn in H. destruct (in_turn_in _ _ _ _ _ H) as (l & IL & C).
    cbn in IL. repeat (destruct IL as [<-|IL]; [cbn in C; repeat (destruct C as [<-|C]; [cbn in G; try discriminate G; injection G as <-; reflexivity|]); contradiction|]). contradiction.
  - intros i hd call g H G. unfold ex_dense_hist_program, dense_in_turn in H. destruct (in_turn_in _ _ _ _ _ H) as (l & IL & C).
    cbn in IL. repeat (destruct IL as [<-|IL]; [cbn in C; repeat (destruct C as [<-|C]; [cbn in G; try discriminate G; injection G as <-; reflexivity|]); contradiction|]). contradiction.
Qed.

(** One call is refused and one asks for a removal.  While thread 2 collects,
    others go on: 110 had been added under del_a. *)
Example C68_case : let s := ex_dbefore ++ ex_dduring in
  ex_dense_results s 0 = [DReturned 0; DReturned 0; DNotRemoved; DReturned 0; DReturned 0]%N /\
  ex_dense_results s 1 = [DReturned 0%N; DRefused; DCounted 3; DReturned 0%N] /\
  ex_dense_results s 2 = [DReturned 0%N; DCollected [(ex_get_a, 3%N); (ex_put_b, 1%N); (ex_del_a, 112%N)]] /\
  ex_dense_results ex_dbefore 2 = [DReturned 0%N] /\ dense_underway ex_dense_setup counter_code ex_dense_program ex_dbefore 2 = None /\
  dense_sum_finished ex_dense_setup counter_code ex_dense_program group_eq_dec ex_count_add ex_del_a 3 ex_dbefore = 110%Z /\
  dense_sum_begun ex_dense_setup counter_code ex_dense_program group_eq_dec ex_count_add counter_delta ex_del_a 3 s = 112%Z.
Proof. vm_conj. Qed.

(** Two groups had been updated when thread 1 began to count; it saw a third. *)
Example C68_count_case : let s := ex_cbefore ++ ex_cduring in
  ex_dense_results ex_cbefore 0 = [DReturned 0; DReturned 0]%N /\ ex_dense_results ex_cbefore 1 = [DReturned 0%N; DRefused] /\
  dense_underway ex_dense_setup counter_code ex_dense_program ex_cbefore 1 = None /\
  ex_dense_results s 1 = [DReturned 0%N; DRefused; DCounted 3].
Proof. vm_conj. Qed.

(** At the end. *)
Example C68_case_end : let s := ex_dense_schedule 100 in
  dense_nobody_busy ex_dense_setup counter_code ex_dense_program s /\
  (forall i, (3 <= i)%nat -> dense_finished ex_dense_setup counter_code ex_dense_program s i = []) /\
  dense_id ex_dense_wt ex_dense_setup ex_del_a 4 /\
  map (dense_metric_at ex_dense_setup counter_code ex_dense_program s) (seq 0 7) = [Some 3; None; None; Some 1; Some 113; None; None]%N /\
  dense_sum_finished ex_dense_setup counter_code ex_dense_program group_eq_dec ex_count_add ex_del_a 3 s = 113%Z.
Proof.
  split; [|split; [|split]].
  - intros i. destruct (Nat.le_gt_cases 3 i) as [X|X]; [now apply (dense_never_ran _ _ _ _ _ _ _ _ _ _ 3)|].
    destruct i as [|[|[|i]]]; [vm_refl..|lia].
  - intros i X. now apply (dense_never_ran _ _ _ _ _ _ _ _ _ _ 3).
  - split; [reflexivity|]. exists (4%N, []). split; reflexivity.
  - vm_conj.
Qed.

Example C68_histogram_case : let s := ex_dhbefore ++ ex_dhduring in
  ex_dense_hist_results ex_dhbefore 2 = [DReturned (Some ([], 0, 0))]%N /\
  dense_underway ex_dense_setup (hist_code 2) ex_dense_hist_program ex_dhbefore 2 = None /\
  nth 1 (ex_dense_hist_results s 1) DFailed = DReturned None /\
  nth 1 (ex_dense_hist_results s 2) DFailed =
    DCollected [(ex_get_a, Some ([1; 1], 1, 4617878467915022336)); (ex_put_b, Some ([1; 1], 0, 4612811918334230528))]%N /\
  dense_sum_finished ex_dense_setup (hist_code 2) ex_dense_hist_program group_eq_dec hist_added ex_get_a 3 s = 3%Z.
Proof. vm_conj. Qed.
