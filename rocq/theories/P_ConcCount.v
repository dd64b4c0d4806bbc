(** Property C76: counts of the metrics of a sparse vec (get_cardinality) by one
    thread while others update, delete, collect and count. *)
From Coq Require Import String List NArith ZArith Bool Arith Lia.
From Verif Require Import Base FloatModel MetricModel MetricExamples LabelModel LabelSpec ConcModel ConcSpec ConcExamples ConcVecModel ConcVecSpec
  ConcVecTheorems ConcVecExamples ConcLabelModel ConcLabelSpec ConcLabelExamples ConcCallModel ConcCallSpec ConcCallTheorems ConcCallExamples ConcCountExamples.
Import ListNotations.

(** A count is the size of a set of groups.  The set has only groups that someone
    began to update before the count ended, and it has every group of which an
    update had returned when the count began, if nobody deletes the group. *)
Theorem C76_groups : forall Sh Op Res Mic V St w (m : metric_code Sh Op Res Mic V) spec (st_new : St) aview (P : call_program Op Res V),
  setup_ok w -> calls_shaped (su_fields w) P -> good_metric (mc_machine m) (mc_new m) (mc_view m) spec st_new aview ->
  (forall k, (su_shard_of w k < su_shards w)%nat) ->
  forall s0 s1 i tr rest, call_underway w m P s0 i = None ->
  finished_calls w m P (s0 ++ s1) i = finished_calls w m P s0 i ++ (CCount, tr) :: rest ->
  exists gs, result_of CCount tr = Counted (List.length gs) /\ NoDup gs /\
    (forall g, In g gs -> exists j u, call_begun w m P (s0 ++ s1) j (CUpdate g u)) /\
    forall g, (forall j hd, P j hd <> Some (CDelete g)) ->
      forall j u t r, In (CUpdate g u, t) (finished_calls w m P s0 j) -> result_of (CUpdate g u) t = Returned r -> In g gs.
Proof. exact @all_counts. Qed.
Print Assumptions C76_groups.

(** The exact number, when no group is new and none is deleted. *)
Theorem C76_exact : forall Sh Op Res Mic V St w (m : metric_code Sh Op Res Mic V) spec (st_new : St) aview (P : call_program Op Res V),
  setup_ok w -> calls_shaped (su_fields w) P -> good_metric (mc_machine m) (mc_new m) (mc_view m) spec st_new aview ->
  (forall k, (su_shard_of w k < su_shards w)%nat) ->
  forall s0 s1 i tr rest, call_underway w m P s0 i = None ->
  finished_calls w m P (s0 ++ s1) i = finished_calls w m P s0 i ++ (CCount, tr) :: rest ->
  forall gs, NoDup gs -> (forall g, In g gs -> forall j hd, P j hd <> Some (CDelete g)) ->
  (forall g, In g gs -> exists j u t r, In (CUpdate g u, t) (finished_calls w m P s0 j) /\ result_of (CUpdate g u) t = Returned r) ->
  (forall g j u, call_begun w m P (s0 ++ s1) j (CUpdate g u) -> In g gs) ->
  result_of CCount tr = Counted (List.length gs).
Proof. exact @exact_count. Qed.
Print Assumptions C76_exact.

(** If nothing is deleted, a count that begins after another has ended is no
    smaller, whichever threads made them. *)
Theorem C76_monotone : forall Sh Op Res Mic V St w (m : metric_code Sh Op Res Mic V) spec (st_new : St) aview (P : call_program Op Res V),
  setup_ok w -> calls_shaped (su_fields w) P -> good_metric (mc_machine m) (mc_new m) (mc_view m) spec st_new aview ->
  (forall k, (su_shard_of w k < su_shards w)%nat) ->
  forall s0 s1 i tr rest, call_underway w m P s0 i = None ->
  finished_calls w m P (s0 ++ s1) i = finished_calls w m P s0 i ++ (CCount, tr) :: rest ->
  forall i0 tr0 n0 n, In (CCount, tr0) (finished_calls w m P s0 i0) -> (forall g j hd, P j hd <> Some (CDelete g)) ->
  result_of CCount tr0 = Counted n0 -> result_of CCount tr = Counted n -> (n0 <= n)%nat.
Proof. exact @later_counts. Qed.
Print Assumptions C76_monotone.

(** Bob is counted; the next count passes ann's shard before ann is there, so it
    still says one although two updates had returned when it ended; the last one,
    with nothing under way, says three. *)
Example C76_case : let s1 := ex_count_begin ++ ex_count_mid in let s2 := s1 ++ ex_count_end in let s3 := s2 ++ ex_count_last in
  ex_counts ex_count_begin 0 = [Returned 0%N] /\ ex_counts ex_count_begin 2 = [Counted 1] /\
  call_underway ex_setup counter_code ex_counting ex_count_begin 2 = None /\
  ex_counts s1 0 = [Returned 0; Returned 0]%N /\ ex_counts s1 2 = [Counted 1; Counted 1] /\
  ex_counts s2 0 = [Returned 0; Returned 0; Returned 0]%N /\ call_underway ex_setup counter_code ex_counting s2 2 = None /\
  ex_counts s3 2 = [Counted 1; Counted 1; Counted 3].
Proof. vm_compute. repeat split. Qed.

Example C76_hypotheses : setup_ok ex_setup /\ calls_shaped ex_lfields ex_counting /\
  (forall k, (su_shard_of ex_setup k < su_shards ex_setup)%nat) /\ (forall g j hd, ex_counting j hd <> Some (CDelete g)) /\
  good_metric (mc_machine counter_code) (mc_new counter_code) (mc_view counter_code) (pure_spec counter_eff) 0%N (fun v => v).
Proof.
  split; [split; [split; [split|vm_compute; split; reflexivity]|]|split; [|split; [|split]]].
  - cbn. repeat (constructor; [vm_compute; intuition discriminate|]). constructor.
  - repeat (constructor; [cbn; repeat (constructor; [vm_compute; intuition discriminate|]); constructor|]). constructor.
  - intros [|l]; cbn; repeat (constructor; [easy|]); constructor.
  - intros i hd call g H G. unfold ex_counting, in_turn in H. destruct (in_turn_in _ _ _ _ _ H) as (l & L & C).
    cbn in L. repeat (destruct L as [<-|L]; [cbn in C; repeat (destruct C as [<-|C]; [cbn in G; try discriminate G; injection G as <-; reflexivity|]); contradiction|]). contradiction.
  - intros k. apply (Nat.mod_upper_bound _ 2). discriminate.
  - intros g j hd H. unfold ex_counting, in_turn in H. destruct (in_turn_in _ _ _ _ _ H) as (l & L & C).
    cbn in L. repeat (destruct L as [<-|L]; [cbn in C; repeat (destruct C as [C|C]; [discriminate C|]); contradiction|]). contradiction.
  - exact (counter_good 0%N).
Qed.

(** A count need not be the size of the vec at any moment: ann is deleted before
    bob comes, and the count has both. *)
Example C76_no_snapshot : ex_swap_counts ex_swap_schedule 0 = [Returned 0%N; Removed (Some 1%N); Returned 0%N] /\
  ex_swap_counts ex_swap_schedule 1 = [Counted 2] /\
  forall n, (n <= List.length ex_swap_schedule)%nat ->
    (metric_at ex_setup counter_code ex_swap (firstn n ex_swap_schedule) ex_ann_id = None \/
     metric_at ex_setup counter_code ex_swap (firstn n ex_swap_schedule) ex_bob_id = None).
Proof.
  split; [vm_compute; reflexivity|]. split; [vm_compute; reflexivity|].
  assert (H : forallb (fun n => match metric_at ex_setup counter_code ex_swap (firstn n ex_swap_schedule) ex_ann_id,
      metric_at ex_setup counter_code ex_swap (firstn n ex_swap_schedule) ex_bob_id with Some _, Some _ => false | _, _ => true end)
    (seq 0 (S (List.length ex_swap_schedule))) = true) by (vm_compute; reflexivity).
  rewrite forallb_forall in H. intros n L. specialize (H n). rewrite in_seq in H. specialize (H ltac:(lia)).
  destruct (metric_at _ _ _ _ ex_ann_id); [|now left]. destruct (metric_at _ _ _ _ ex_bob_id); [discriminate|now right].
Qed.
