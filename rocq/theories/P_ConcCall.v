(** Property C64: whole calls made by threads on one sparse vec.  [w] has the
    label set and the shards, [m] is the metric, [P] says what each thread calls
    next, [s] is any schedule. *)
From Coq Require Import String List NArith ZArith Bool Arith Lia.
From Verif Require Import Base FloatModel MetricModel MetricExamples LabelModel LabelSpec ConcModel ConcSpec ConcExamples ConcVecModel ConcVecSpec
  ConcVecTheorems ConcVecExamples ConcLabelModel ConcLabelSpec ConcLabelExamples ConcCallModel ConcCallSpec ConcCallTheorems ConcCallExamples ConcWithin.
Import ListNotations.

(** A call does what it is for, or is refused, and then because a field of the
    label set did not take the value at some moment.  Nothing else panics. *)
Theorem C64_results : forall Sh Op Res Mic V St w (m : metric_code Sh Op Res Mic V) spec (st_new : St) aview (P : call_program Op Res V),
  setup_ok w -> calls_shaped (su_fields w) P -> good_metric (mc_machine m) (mc_new m) (mc_view m) spec st_new aview ->
  forall s i call tr, In (call, tr) (finished_calls w m P s i) ->
  match result_of call tr with
  | Returned _ => exists g u, call = CUpdate g u
  | Removed _ => exists g, call = CDelete g
  | Collected _ => call = CCollect
  | Counted _ => call = CCount
  | Refused => exists g s1 s2 f v, call_group call = Some g /\ s = s1 ++ s2 /\ In f (label_set_at w m P s1) /\
      field_value g (f_name f) v /\ refuses f v
  | Failed => False
  end.
Proof. exact @all_results. Qed.
Print Assumptions C64_results.

(** No increment is lost: once nobody is in a call, the counter of a group has
    what the calls for this group added, less what deletions of it returned. *)
Theorem C64_counter_totals : forall w (P : call_program counter_op N N), setup_ok w -> calls_shaped (su_fields w) P ->
  forall s n g k, nobody_busy w counter_code P s -> (forall i, (n <= i)%nat -> finished_calls w counter_code P s i = []) ->
  has_id w counter_code P s g k ->
  Z.of_N (match metric_at w counter_code P s k with Some v => v | None => 0 end) =
  (sum_finished w counter_code P (fun u _ => counter_delta u) Z.of_N g n s mod 2 ^ 64)%Z.
Proof. exact counter_totals. Qed.
Print Assumptions C64_counter_totals.

Theorem C64_histogram_totals : forall b w (P : hist_calls), setup_ok w -> calls_shaped (su_fields w) P ->
  forall s n g k, nobody_busy w (hist_code b) P s -> (forall i, (n <= i)%nat -> finished_calls w (hist_code b) P s i = []) ->
  has_id w (hist_code b) P s g k ->
  (match metric_at w (hist_code b) P s k with Some h => hist_count (hist_view (ch_state h)) | None => 0 end mod 2 ^ 64 =
   sum_finished w (hist_code b) P hist_added hist_count g n s mod 2 ^ 64)%Z.
Proof. exact hist_totals. Qed.
Print Assumptions C64_histogram_totals.

(** Every row belongs to a group that some call updated. *)
Theorem C64_rows : forall Sh Op Res Mic V St w (m : metric_code Sh Op Res Mic V) spec (st_new : St) aview (P : call_program Op Res V),
  setup_ok w -> calls_shaped (su_fields w) P -> good_metric (mc_machine m) (mc_new m) (mc_view m) spec st_new aview ->
  forall s, nobody_busy w m P s -> forall k x, metric_at w m P s k = Some x ->
  exists g u j tr, In (CUpdate g u, tr) (finished_calls w m P s j) /\ group_decode (su_build w) (label_set_at w m P s) k = Done g /\
    group_encode (su_build w) (label_set_at w m P s) g = Done (label_set_at w m P s, Some k).
Proof. exact @all_rows. Qed.
Print Assumptions C64_rows.

(** A collection reports every group at most once, whatever the others do
    meanwhile, and only groups that someone has begun to update. *)
Theorem C64_collections : forall Sh Op Res Mic V St w (m : metric_code Sh Op Res Mic V) spec (st_new : St) aview (P : call_program Op Res V),
  setup_ok w -> calls_shaped (su_fields w) P -> good_metric (mc_machine m) (mc_new m) (mc_view m) spec st_new aview ->
  forall s i tr, In (CCollect, tr) (finished_calls w m P s i) -> exists l, result_of CCollect tr = Collected l /\
    NoDup (map fst l) /\ forall g r, In (g, r) l -> exists j u, call_begun w m P s j (CUpdate g u).
Proof. exact @all_collections. Qed.
Print Assumptions C64_collections.

(** A collection that starts after an update of a group has returned reports the
    group, if nobody deletes it. *)
Theorem C64_shown : forall Sh Op Res Mic V St w (m : metric_code Sh Op Res Mic V) spec (st_new : St) aview (P : call_program Op Res V),
  setup_ok w -> calls_shaped (su_fields w) P -> good_metric (mc_machine m) (mc_new m) (mc_view m) spec st_new aview ->
  (forall k, (su_shard_of w k < su_shards w)%nat) -> forall g, (forall j hd, P j hd <> Some (CDelete g)) ->
  forall s0 s1 i tr rest, call_underway w m P s0 i = None ->
  finished_calls w m P (s0 ++ s1) i = finished_calls w m P s0 i ++ (CCollect, tr) :: rest ->
  forall j u t r, In (CUpdate g u, t) (finished_calls w m P s0 j) -> result_of (CUpdate g u) t = Returned r ->
  exists l r', result_of CCollect tr = Collected l /\ In (g, r') l.
Proof. exact @all_shown. Qed.
Print Assumptions C64_shown.

(** What it reports for a counter lies between what had been added when the
    collection began and what calls begun before it ended may have added. *)
Theorem C64_counter_bracket : forall w (P : call_program counter_op N N), setup_ok w -> calls_shaped (su_fields w) P ->
  forall g, (forall j hd, P j hd <> Some (CDelete g)) ->
  forall s0 s1 i tr rest n, call_underway w counter_code P s0 i = None ->
  finished_calls w counter_code P (s0 ++ s1) i = finished_calls w counter_code P s0 i ++ (CCollect, tr) :: rest ->
  (forall j, (n <= j)%nat -> finished_calls w counter_code P (s0 ++ s1) j = [] /\ call_underway w counter_code P (s0 ++ s1) j = None) ->
  let add := fun u (_ : N) => counter_delta u in
  (sum_begun w counter_code P add Z.of_N counter_delta g n (s0 ++ s1) < 2 ^ 64)%Z ->
  forall l r, result_of CCollect tr = Collected l -> In (g, r) l ->
  (sum_finished w counter_code P add Z.of_N g n s0 <= Z.of_N r <=
   sum_begun w counter_code P add Z.of_N counter_delta g n (s0 ++ s1))%Z.
Proof. exact counter_brackets. Qed.
Print Assumptions C64_counter_bracket.

Theorem C64_histogram_bracket : forall b w (P : hist_calls), setup_ok w -> calls_shaped (su_fields w) P ->
  forall g, (forall j hd, P j hd <> Some (CDelete g)) ->
  forall s0 s1 i tr rest n, call_underway w (hist_code b) P s0 i = None ->
  finished_calls w (hist_code b) P (s0 ++ s1) i = finished_calls w (hist_code b) P s0 i ++ (CCollect, tr) :: rest ->
  (forall j, (n <= j)%nat -> finished_calls w (hist_code b) P (s0 ++ s1) j = [] /\ call_underway w (hist_code b) P (s0 ++ s1) j = None) ->
  (sum_begun w (hist_code b) P hist_added hist_count hist_most g n (s0 ++ s1) < 2 ^ 64)%Z ->
  forall l r, result_of CCollect tr = Collected l -> In (g, r) l ->
  exists v, r = Some v /\ length (fst (fst v)) = b /\
    (sum_finished w (hist_code b) P hist_added hist_count g n s0 <= hist_count v <=
     sum_begun w (hist_code b) P hist_added hist_count hist_most g n (s0 ++ s1))%Z.
Proof. exact hist_brackets_exact. Qed.
Print Assumptions C64_histogram_bracket.

(** Three threads on one vec. *)
Example C64_hypotheses : setup_ok ex_setup /\ calls_shaped ex_lfields ex_count_program /\ calls_shaped ex_lfields ex_hist_program /\
  (forall k, (su_shard_of ex_setup k < su_shards ex_setup)%nat) /\
  (forall j hd, ex_count_program j hd <> Some (CDelete ex_bob)) /\ (forall j hd, ex_hist_program j hd <> Some (CDelete ex_bob)).
Proof.
  split; [split; [split; [split|vm_compute; split; reflexivity]|]|split; [|split; [|split; [|split]]]].
  - cbn. repeat (constructor; [vm_compute; intuition discriminate|]). constructor.
  - repeat (constructor; [cbn; repeat (constructor; [vm_compute; intuition discriminate|]); constructor|]). constructor.
  - intros [|l]; cbn; repeat (constructor; [easy|]); constructor.
  - intros i hd call g H G. unfold ex_count_program, in_turn in H. destruct (in_turn_in _ _ _ _ _ H) as (l & L & C).
    cbn in L. repeat (destruct L as [<-|L]; [cbn in C; repeat (destruct C as [<-|C]; [cbn in G; try discriminate G; injection G as <-; reflexivity|]); contradiction|]). contradiction.
  - intros i hd call g H G. unfold ex_hist_program, in_turn in H. destruct (in_turn_in _ _ _ _ _ H) as (l & L & C).
    cbn in L. repeat (destruct L as [<-|L]; [cbn in C; repeat (destruct C as [<-|C]; [cbn in G; try discriminate G; injection G as <-; reflexivity|]); contradiction|]). contradiction.
  - intros k. apply (Nat.mod_upper_bound _ 2). discriminate.
  - intros j hd H. unfold ex_count_program, in_turn in H. destruct (in_turn_in _ _ _ _ _ H) as (l & L & C).
    cbn in L. repeat (destruct L as [<-|L]; [cbn in C; repeat (destruct C as [C|C]; [discriminate C|]); contradiction|]). contradiction.
  - intros j hd H. unfold ex_hist_program, in_turn in H. destruct (in_turn_in _ _ _ _ _ H) as (l & L & C).
    cbn in L. repeat (destruct L as [<-|L]; [cbn in C; repeat (destruct C as [C|C]; [discriminate C|]); contradiction|]). contradiction.
Qed.

(** One thread is refused, one deletes a counter others use, and the collection
    reports 111 while 110 were added before it and 112 by its end. *)
Example C64_case : let s := ex_before ++ ex_during in
  results_of s 0 = [Returned 0; Returned 0; Returned 0; Returned 0]%N /\
  results_of s 1 = [Returned 0; Removed (Some 3); Refused; Returned 0]%N /\
  results_of s 2 = [Returned 0; Collected [(ex_bob, 111)]]%N /\
  results_of ex_before 2 = [Returned 0%N] /\ call_underway ex_setup counter_code ex_count_program ex_before 2 = None /\
  sum_finished ex_setup counter_code ex_count_program ex_count_add Z.of_N ex_bob 3 ex_before = 110%Z /\
  sum_begun ex_setup counter_code ex_count_program ex_count_add Z.of_N counter_delta ex_bob 3 s = 112%Z.
Proof. vm_compute. repeat split. Qed.

(** At the end. *)
Example C64_case_end : let s := ex_call_schedule 100 in
  nobody_busy ex_setup counter_code ex_count_program s /\
  (forall i, (3 <= i)%nat -> finished_calls ex_setup counter_code ex_count_program s i = []) /\
  results_of s 2 = [Returned 0; Collected [(ex_bob, 111)]; Collected [(ex_ann, 4); (ex_bob, 112)]; Collected [(ex_ann, 4); (ex_bob, 112)]]%N /\
  group_encode Debug (label_set_at ex_setup counter_code ex_count_program s) ex_ann =
    Done (label_set_at ex_setup counter_code ex_count_program s, Some ex_ann_id) /\
  metric_at ex_setup counter_code ex_count_program s ex_ann_id = Some 4%N /\
  metric_at ex_setup counter_code ex_count_program s ex_bob_id = Some 112%N /\
  sum_finished ex_setup counter_code ex_count_program ex_count_add Z.of_N ex_ann 3 s = 4%Z.
Proof.
  split; [|split].
  - intros i. destruct (Nat.le_gt_cases 3 i) as [L|L]; [now apply (never_ran _ _ _ _ _ _ _ _ _ 3)|].
    destruct i as [|[|[|i]]]; [vm_compute; reflexivity..|lia].
  - intros i L. now apply (never_ran _ _ _ _ _ _ _ _ _ 3).
  - vm_compute. repeat split.
Qed.

Example C64_histogram_case : let s := ex_hbefore ++ ex_hduring in
  ex_hist_results ex_hbefore 2 = [Returned (Some ([], 0, 0))]%N /\ call_underway ex_setup (hist_code 2) ex_hist_program ex_hbefore 2 = None /\
  nth 1 (ex_hist_results s 1) Failed = Returned None /\
  nth 1 (ex_hist_results s 2) Failed =
    Collected [(ex_ann, Some ([1; 1], 1, 4617878467915022336)); (ex_bob, Some ([1; 1], 0, 4612811918334230528))]%N /\
  sum_finished ex_setup (hist_code 2) ex_hist_program hist_added hist_count ex_bob 3 ex_hbefore = 1%Z /\
  sum_begun ex_setup (hist_code 2) ex_hist_program hist_added hist_count hist_most ex_bob 3 s = 2%Z /\
  sum_finished ex_setup (hist_code 2) ex_hist_program hist_added hist_count ex_ann 3 s = 3%Z.
Proof. vm_compute. repeat split. Qed.

(** Rows of one collection are from different moments: here ann is counted before
    bob each time, and the collection has more of bob. *)
Example C64_no_snapshot : let s := ex_torn_schedule in
  ex_torn_results s 0 = [Returned 0; Returned 0; Returned 0; Returned 0]%N /\
  ex_torn_results s 1 = [Collected [(ex_ann, 1); (ex_bob, 2)]]%N.
Proof. vm_compute. repeat split. Qed.
