(** Property C53: sparse vecs shared by threads.  [prog] is any program, [s] any
    schedule, [keqb] the equality of the keys, [shard_of] any hash function. *)
From Coq Require Import List NArith ZArith Bool Arith Lia.
From Verif Require Import Base FloatModel MetricModel MetricExamples ConcModel ConcSpec ConcProofs ConcTheorems ConcExamples
  ConcVecModel ConcVecSpec ConcVecTheorems ConcVecExamples ConcHandles.
Import ListNotations.

(** At most one metric per label: entries are in the shard of their key and no
    two have the same key.  Every reference handed out and not yet dropped
    points to an entry that is there. *)
Theorem C53_one_metric_per_label : forall K Sh Op Res Mic V St keqb (keqb_eq : forall x y : K, keqb x y = true <-> x = y) shard_of
  (O : machine Sh Op Res Mic) sh_new (view : Sh -> V) spec (st_new : St) aview, good_metric O sh_new view spec st_new aview ->
  forall prog s, let c := c_sh (run (sparse_machine keqb shard_of O sh_new view) prog s (start_config sv_new)) in
    (forall s e, In e (tab_of s c) -> shard_of (e_key e) = s) /\
    (forall s e e', In e (tab_of s c) -> In e' (tab_of s c) -> e_key e = e_key e' -> e = e') /\
    (forall g k n, In g (v_guards c) -> In (k, n) (g_refs g) ->
       exists e, In e (tab_of (g_shard g) c) /\ e_key e = k /\ e_id e = n).
Proof. exact @any_structure. Qed.
Print Assumptions C53_one_metric_per_label.

(** No call panics and no call goes through a reference to an entry that is gone. *)
Theorem C53_no_dangling : forall K Sh Op Res Mic V St keqb (keqb_eq : forall x y : K, keqb x y = true <-> x = y) shard_of
  (O : machine Sh Op Res Mic) sh_new (view : Sh -> V) spec (st_new : St) aview, good_metric O sh_new view spec st_new aview ->
  forall prog s i op r,
    In (op, r) (t_done (c_th (run (sparse_machine keqb shard_of O sh_new view) prog s (start_config sv_new)) i)) ->
    r <> RPanic /\ r <> RDangling.
Proof. exact @any_results. Qed.
Print Assumptions C53_no_dangling.

(** A thread can use its guards, and only those, for the keys they are for; no
    call is turned down for another reason. *)
Theorem C53_handles : forall K Sh Op Res Mic V St keqb (keqb_eq : forall x y : K, keqb x y = true <-> x = y) shard_of
  (O : machine Sh Op Res Mic) sh_new (view : Sh -> V) spec (st_new : St) aview, good_metric O sh_new view spec st_new aview ->
  forall prog s i, returns_all keqb [] (t_done (c_th (run (sparse_machine keqb shard_of O sh_new view) prog s (start_config sv_new)) i)).
Proof. exact any_handles. Qed.
Print Assumptions C53_handles.

(** Counters, gauges and histograms are such metrics. *)
Theorem C53_metrics :
  (forall v, good_metric counter_machine v (fun v => v) (pure_spec counter_eff) v (fun v => v)) /\
  (forall v, good_metric igauge_machine v (fun v => v) (pure_spec igauge_eff) v (fun v => v)) /\
  (forall v, good_metric float_machine v (fun v => v) float_spec v (fun v => v)) /\
  (forall n, good_metric hist_machine {| ch_lock := rw_free; ch_state := hist_new n |} (fun c => hist_view (ch_state c))
     hist_spec (hist_new n) hist_view).
Proof. exact (conj counter_good (conj igauge_good (conj float_good hist_good))). Qed.
Print Assumptions C53_metrics.

(** A vec of any such metric behaves like a map changed by one call at a time. *)
Theorem C53_linearizable : forall K Sh Op Res Mic V St keqb (keqb_eq : forall x y : K, keqb x y = true <-> x = y) shard_of
  (O : machine Sh Op Res Mic) sh_new (view : Sh -> V) spec (st_new : St) aview, good_metric O sh_new view spec st_new aview ->
  forall prog, exists L : schedule -> list (@entry (vec_op K Op) (vec_res K Res V)),
    real_time_order L (fun s => run (sparse_machine keqb shard_of O sh_new view) prog s (start_config sv_new)) /\
    forall s, let c := run (sparse_machine keqb shard_of O sh_new view) prog s (start_config sv_new) in
      explains (L s) c /\
      exists a, legal (vec_spec keqb shard_of spec st_new aview) av_new (L s) a /\
        (quiescent c -> forall k, option_map view (vec_lookup keqb shard_of k (c_sh c)) =
           option_map aview (aget keqb k (a_tab a (shard_of k)))).
Proof. exact @any_linearizable. Qed.
Print Assumptions C53_linearizable.

(** No increment is lost: what is in the counter of [k] and what removals of [k]
    have returned add up to the increments made under [k]. *)
Theorem C53_no_lost_increment : forall K keqb (keqb_eq : forall x y : K, keqb x y = true <-> x = y) shard_of prog s n k,
  let c := run (counter_vec keqb shard_of) prog s (start_config sv_new) in
  quiescent c -> (forall i, (n <= i)%nat -> t_done (c_th c i) = []) ->
  Z.of_N (match vec_lookup keqb shard_of k (c_sh c) with Some v => v | None => 0 end) =
  (total_flow (vec_flow keqb (fun u _ => counter_delta u) Z.of_N k) n c mod 2 ^ 64)%Z.
Proof. exact @counter_vec_total. Qed.
Print Assumptions C53_no_lost_increment.

(** No observation is lost either. *)
Theorem C53_no_lost_observation : forall K keqb (keqb_eq : forall x y : K, keqb x y = true <-> x = y) shard_of nb prog s n k,
  let c := run (hist_vec nb keqb shard_of) prog s (start_config sv_new) in
  quiescent c -> (forall i, (n <= i)%nat -> t_done (c_th c i) = []) ->
  (match vec_lookup keqb shard_of k (c_sh c) with Some h => hist_count (hist_view (ch_state h)) | None => 0 end mod 2 ^ 64 =
   total_flow (vec_flow keqb hist_added hist_count k) n c mod 2 ^ 64)%Z.
Proof. exact @hist_vec_total. Qed.
Print Assumptions C53_no_lost_observation.

(** In the order in which the calls took effect: reads and removals return what
    was counted since the last removal, opening a shard shows exactly the labels
    it has, each once, and no label of a shard is removed between a lookup in the
    shard and the end of its guard. *)
Theorem C53_order : forall K keqb (keqb_eq : forall x y : K, keqb x y = true <-> x = y) shard_of prog,
  let flow := vec_flow keqb (fun u (_ : N) => counter_delta u) Z.of_N in
  exists L : schedule -> list (@entry (vec_op K counter_op) (vec_res K N N)),
    real_time_order L (fun s => run (counter_vec keqb shard_of) prog s (start_config sv_new)) /\
    forall s, explains (L s) (run (counter_vec keqb shard_of) prog s (start_config sv_new)) /\
      (forall pre i h k r post, L s = pre ++ (i, SUse h k KRead, RVal r) :: post ->
         Z.of_N r = (sum_over (fun e => flow k (snd (fst e), snd e)) pre mod 2 ^ 64)%Z) /\
      (forall pre i h sh ks post, L s = pre ++ (i, SOpen h sh, RKeys ks) :: post ->
         NoDup ks /\ forall k, In k ks <-> shard_of k = sh /\ present keqb k pre = true) /\
      (forall pre i k v post, L s = pre ++ (i, SRemove k, RRemoved v) :: post ->
         match v with
         | Some v => Z.of_N v = (sum_over (fun e => flow k (snd (fst e), snd e)) pre mod 2 ^ 64)%Z
         | None => present keqb k pre = false
         end) /\
      (forall pre i h k mid j k' r post, L s = pre ++ (i, SGet h k, RUnit) :: mid ++ (j, SRemove k', r) :: post ->
         shard_of k' = shard_of k -> exists r', In (i, SDrop h, r') mid).
Proof. exact @counter_vec_order. Qed.
Print Assumptions C53_order.

(** Samples of a histogram in a vec are consistent, as those of a histogram alone (C26). *)
Theorem C53_snapshots : forall K keqb (keqb_eq : forall x y : K, keqb x y = true <-> x = y) shard_of nb prog,
  exists L : schedule -> list (@entry (vec_op K hist_op) (vec_res K hist_res (list N * N * N))),
    real_time_order L (fun s => run (hist_vec nb keqb shard_of) prog s (start_config sv_new)) /\
    forall s, explains (L s) (run (hist_vec nb keqb shard_of) prog s (start_config sv_new)) /\
      ((forall i h k b x r, In (i, SUse h k (HObserve b x), r) (L s) -> (b <= nb)%nat) ->
       forall pre i h k r post, L s = pre ++ (i, SUse h k HSample, RVal r) :: post ->
         exists hs, observe_seq (observations (life keqb k pre)) (hist_new nb) = Done hs /\ r = Some (hist_view hs)).
Proof. exact @hist_vec_snapshots. Qed.
Print Assumptions C53_snapshots.

(** Label 5 is counted to 4, removed, counted to 40, removed; label 7 stays. *)
Example C53_nonvacuous :
  (forall i, t_cur (c_th ex_cvec_end i) = None) /\ (forall i, (4 <= i)%nat -> t_done (c_th ex_cvec_end i) = []) /\
  vec_lookup Nat.eqb ex_shard 5 (c_sh ex_cvec_end) = None /\ vec_lookup Nat.eqb ex_shard 7 (c_sh ex_cvec_end) = Some 2%N /\
  map snd (t_done (c_th ex_cvec_end 2)) = [RRemoved (Some 4%N); RRemoved (Some 40%N); RRemoved None; RRemoved None] /\
  In (SUse 0 5 KRead, RVal 4%N) (t_done (c_th ex_cvec_end 1)) /\
  map snd (t_done (c_th ex_cvec_end 3)) = [RKeys [7]; RBad; RUnit; RKeys [7]; RVal 2%N; RUnit] /\
  v_guards (c_sh ex_cvec_mid) = [{| g_tid := 0; g_h := 0; g_shard := 1; g_refs := [(5, 0)] |}].
Proof.
  assert (U : forall i, (4 <= i)%nat -> c_th ex_cvec_end i = {| t_cur := None; t_done := [] |}).
  { intros i L. exact (untouched _ _ _ _ (counter_vec Nat.eqb ex_shard) (calls (at_nat ex_cvec_calls)) ex_cvec_schedule
      (start_config sv_new) 4 i eq_refl L). }
  split; [|split; [intros i L; now rewrite (U i L)|]].
  - intros i. destruct (Nat.le_gt_cases 4 i) as [L|L]; [now rewrite (U i L)|].
    destruct i as [|[|[|[|i]]]]; [vm_compute; reflexivity..|lia].
  - do 5 (split; [vm_compute; auto|]). vm_compute. reflexivity.
Qed.

Example C53_histogram_nonvacuous :
  (forall i, t_cur (c_th ex_hvec_end i) = None) /\ (forall i, (3 <= i)%nat -> t_done (c_th ex_hvec_end i) = []) /\
  map snd (t_done (c_th ex_hvec_end 2)) =
    [RUnit; RVal (Some ([1; 1], 1, f_add (f_add f_half f_three) f_two)%N); RUnit;
     RRemoved (Some ([1; 1], 1, f_add (f_add f_half f_three) f_two)%N); RKeys []; RUnit].
Proof.
  assert (U : forall i, (3 <= i)%nat -> c_th ex_hvec_end i = {| t_cur := None; t_done := [] |}).
  { intros i L. exact (untouched _ _ _ _ (hist_vec 2 Nat.eqb ex_shard) (calls (at_nat ex_hvec_calls)) ex_hvec_schedule
      (start_config sv_new) 3 i eq_refl L). }
  split; [|split; [intros i L; now rewrite (U i L)|]].
  - intros i. destruct (Nat.le_gt_cases 3 i) as [L|L]; [now rewrite (U i L)|].
    destruct i as [|[|[|i]]]; [vm_compute; reflexivity..|lia].
  - vm_compute. reflexivity.
Qed.
