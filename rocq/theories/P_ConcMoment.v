(** Property C79: every row of a collection is its metric at one moment.  [w] has the
    label set and the shards, [m] is the metric, [P] says what each thread calls next,
    [wr] which calls write.  The collection by thread [i] begins after the schedule
    [s0] and has ended by the end of [s1]. *)
From Coq Require Import String List NArith ZArith Bool Arith Lia.
From Verif Require Import Base FloatModel MetricModel MetricExamples LabelModel LabelSpec ConcModel ConcSpec ConcExamples ConcVecModel ConcVecSpec
  ConcVecTheorems ConcVecExamples ConcLabelModel ConcLabelSpec ConcLabelExamples ConcCallModel ConcCallSpec ConcCallTheorems ConcCallOrder ConcCallExamples P_ConcCall
  GroupProofs LawProofs ConcDenseModel ConcDenseSpec ConcDenseCallModel ConcDenseCallSpec ConcDenseCallProofs ConcDenseCallTheorems ConcDenseCallExamples P_ConcDenseCall
  ConcMomentSpec ConcMoment ConcMomentDense ConcMomentOne ConcMomentExamples.
Import ListNotations.
Local Open Scope nat_scope.

(** There is a history of the metric, legal for one thread alone, in which each thread
    has made all the writes it had finished before the collection, then perhaps some
    of those it began by the end of it, in their order; the row is what is read then. *)
Theorem C79_moment : forall Sh Op Res Mic V St w (m : metric_code Sh Op Res Mic V) spec (st_new : St) aview (P : call_program Op Res V),
  setup_ok w -> calls_shaped (su_fields w) P -> good_metric (mc_machine m) (mc_new m) (mc_view m) spec st_new aview ->
  forall wr, wr (mc_read m) = false ->
  forall g, (forall j hd, P j hd <> Some (CDelete g)) ->
  forall s0 s1 i tr rest, call_underway w m P s0 i = None ->
  finished_calls w m P (s0 ++ s1) i = finished_calls w m P s0 i ++ (CCollect, tr) :: rest ->
  forall l r, result_of CCollect tr = Collected l -> In (g, r) l ->
  exists log x x', legal spec st_new log x /\ spec i (mc_read m) x = Some (x', r) /\
    forall j, initial (writes_finished w m P wr g s0 j) (writes_in wr j log) /\ initial (writes_in wr j log) (writes_begun w m P wr g (s0 ++ s1) j).
Proof. exact @row_moment. Qed.
Print Assumptions C79_moment.

(** Gauges that nobody sets: bounds on what each thread may have added, add up. *)
Theorem C79_gauges : forall w (P : call_program igauge_op Z Z), setup_ok w -> calls_shaped (su_fields w) P ->
  forall g, (forall j hd, P j hd <> Some (CDelete g)) -> (forall j hd x, P j hd <> Some (CUpdate g (IWrite (GSet x)))) ->
  forall s0 s1 i tr rest, call_underway w gauge_code P s0 i = None ->
  finished_calls w gauge_code P (s0 ++ s1) i = finished_calls w gauge_code P s0 i ++ (CCollect, tr) :: rest ->
  forall n, (forall j, n <= j -> finished_calls w gauge_code P (s0 ++ s1) j = [] /\ call_underway w gauge_code P (s0 ++ s1) j = None) ->
  forall l r, result_of CCollect tr = Collected l -> In (g, r) l ->
  forall lo hi : nat -> Z,
  (forall j p, j < n -> initial (writes_finished w gauge_code P gauge_writes g s0 j) p -> initial p (writes_begun w gauge_code P gauge_writes g (s0 ++ s1) j) ->
     (lo j <= sum_over gauge_delta p <= hi j)%Z) ->
  (- 2 ^ 63 <= sum_over lo (seq 0 n))%Z -> (sum_over hi (seq 0 n) < 2 ^ 63)%Z ->
  (sum_over lo (seq 0 n) <= r <= sum_over hi (seq 0 n))%Z.
Proof. exact gauge_between. Qed.
Print Assumptions C79_gauges.

(** Things counted up when they begin and down when they end, by [n] threads: the gauge
    is never negative and never above [n], in any collection. *)
Theorem C79_in_flight : forall w (P : call_program igauge_op Z Z), setup_ok w -> calls_shaped (su_fields w) P ->
  forall g, (forall j hd, P j hd <> Some (CDelete g)) -> (forall j hd x, P j hd <> Some (CUpdate g (IWrite (GSet x)))) ->
  forall s0 s1 i tr rest, call_underway w gauge_code P s0 i = None ->
  finished_calls w gauge_code P (s0 ++ s1) i = finished_calls w gauge_code P s0 i ++ (CCollect, tr) :: rest ->
  forall n, (forall j, n <= j -> finished_calls w gauge_code P (s0 ++ s1) j = [] /\ call_underway w gauge_code P (s0 ++ s1) j = None) ->
  forall l r, result_of CCollect tr = Collected l -> In (g, r) l ->
  (forall j p, j < n -> initial p (writes_begun w gauge_code P gauge_writes g (s0 ++ s1) j) -> (0 <= sum_over gauge_delta p <= 1)%Z) ->
  (Z.of_nat n < 2 ^ 63)%Z -> (0 <= r <= Z.of_nat n)%Z.
Proof. exact gauge_in_flight. Qed.
Print Assumptions C79_in_flight.

(** Gauges that one thread writes, also by setting them: the value is that after all it
    had finished and some of what it went on to write. *)
Theorem C79_one_writer : forall w (P : call_program igauge_op Z Z), setup_ok w -> calls_shaped (su_fields w) P ->
  forall g, (forall j hd, P j hd <> Some (CDelete g)) ->
  forall s0 s1 i tr rest, call_underway w gauge_code P s0 i = None ->
  finished_calls w gauge_code P (s0 ++ s1) i = finished_calls w gauge_code P s0 i ++ (CCollect, tr) :: rest ->
  forall k, (forall j, j <> k -> writes_begun w gauge_code P gauge_writes g (s0 ++ s1) j = []) ->
  forall l r, result_of CCollect tr = Collected l -> In (g, r) l ->
  exists p, initial (writes_finished w gauge_code P gauge_writes g s0 k) p /\ initial p (writes_begun w gauge_code P gauge_writes g (s0 ++ s1) k) /\
    r = gauge_after p.
Proof. exact gauge_alone. Qed.
Print Assumptions C79_one_writer.

Theorem C79_one_float_writer : forall w (P : call_program float_op N N), setup_ok w -> calls_shaped (su_fields w) P ->
  forall g, (forall j hd, P j hd <> Some (CDelete g)) ->
  forall s0 s1 i tr rest, call_underway w float_code P s0 i = None ->
  finished_calls w float_code P (s0 ++ s1) i = finished_calls w float_code P s0 i ++ (CCollect, tr) :: rest ->
  forall k, (forall j, j <> k -> writes_begun w float_code P float_writes g (s0 ++ s1) j = []) ->
  forall l r, result_of CCollect tr = Collected l -> In (g, r) l ->
  exists p, initial (writes_finished w float_code P float_writes g s0 k) p /\ initial p (writes_begun w float_code P float_writes g (s0 ++ s1) k) /\
    r = float_after p.
Proof. exact float_alone. Qed.
Print Assumptions C79_one_float_writer.

(** Two threads go in and out of bob while the third collects. *)
Example C79_hypotheses : calls_shaped ex_lfields ex_flight_program /\ calls_shaped ex_lfields ex_fwriter_program /\
  (forall j hd, ex_flight_program j hd <> Some (CDelete ex_bob)) /\ (forall j hd x, ex_flight_program j hd <> Some (CUpdate ex_bob (IWrite (GSet x)))) /\
  (forall j hd, ex_fwriter_program j hd <> Some (CDelete ex_ann)).
Proof.
  split; [|split; [|split; [|split]]].
  - intros i hd call g H G. unfold ex_flight_program, in_turn in H. destruct (in_turn_in _ _ _ _ _ H) as (l & L & C).
    cbn in L. repeat (destruct L as [<-|L]; [cbn in C; repeat (destruct C as [<-|C]; [cbn in G; try discriminate G; injection G as <-; reflexivity|]); contradiction|]). contradiction.
  - intros i hd call g H G. unfold ex_fwriter_program, in_turn in H. destruct (in_turn_in _ _ _ _ _ H) as (l & L & C).
    cbn in L. repeat (destruct L as [<-|L]; [cbn in C; repeat (destruct C as [<-|C]; [cbn in G; try discriminate G; injection G as <-; reflexivity|]); contradiction|]). contradiction.
  - intros j hd H. unfold ex_flight_program, in_turn in H. destruct (in_turn_in _ _ _ _ _ H) as (l & L & C).
    cbn in L. repeat (destruct L as [<-|L]; [cbn in C; repeat (destruct C as [C|C]; [discriminate C|]); contradiction|]). contradiction.
  - intros j hd x H. unfold ex_flight_program, in_turn in H. destruct (in_turn_in _ _ _ _ _ H) as (l & L & C).
    cbn in L. repeat (destruct L as [<-|L]; [cbn in C; repeat (destruct C as [C|C]; [discriminate C|]); contradiction|]). contradiction.
  - intros j hd H. unfold ex_fwriter_program, in_turn in H. destruct (in_turn_in _ _ _ _ _ H) as (l & L & C).
    cbn in L. repeat (destruct L as [<-|L]; [cbn in C; repeat (destruct C as [C|C]; [discriminate C|]); contradiction|]). contradiction.
Qed.

Example C79_case : let s := ex_fly1 ++ ex_fly2 in
  call_underway ex_setup gauge_code ex_flight_program ex_fly1 2 = None /\ ex_flight_results ex_fly1 2 = [] /\
  ex_flight_results s 2 = [Collected [(ex_bob, 1%Z)]] /\
  map (writes_finished ex_setup gauge_code ex_flight_program gauge_writes ex_bob ex_fly1) [0; 1] = [[IWrite GInc]; [IWrite GInc]] /\
  map (writes_begun ex_setup gauge_code ex_flight_program gauge_writes ex_bob s) [0; 1] = [[IWrite GInc; IWrite GDec; IWrite GInc]; [IWrite GInc; IWrite GDec]].
Proof. vm_compute. repeat split. Qed.

Lemma parts : forall A (a p : list A), initial p a -> exists k, k <= List.length a /\ p = firstn k a.
Proof.
  intros A a p (c & ->). exists (List.length p). rewrite app_length, firstn_app, Nat.sub_diag, firstn_all, firstn_O, app_nil_r. split; [lia|reflexivity].
Qed.

(** So the theorem applies and says that it is between 0 and 3. *)
Example C79_applied : exists l, ex_flight_results (ex_fly1 ++ ex_fly2) 2 = [Collected l] /\ (exists r, In (ex_bob, r) l) /\ forall r, In (ex_bob, r) l -> (0 <= r <= 3)%Z.
Proof.
  destruct C64_hypotheses as (OK & _). destruct C79_hypotheses as (SH & _ & KP & NS & _).
  set (tr := snd (nth 0 (finished_calls ex_setup gauge_code ex_flight_program (ex_fly1 ++ ex_fly2) 2) (CCollect, []))).
  assert (E : finished_calls ex_setup gauge_code ex_flight_program (ex_fly1 ++ ex_fly2) 2 =
    finished_calls ex_setup gauge_code ex_flight_program ex_fly1 2 ++ (CCollect, tr) :: []) by (vm_compute; reflexivity).
  assert (R0 : result_of CCollect tr = Collected [(ex_bob, 1%Z)]) by (vm_compute; reflexivity).
  exists [(ex_bob, 1%Z)]. split; [vm_compute; reflexivity|]. split; [exists 1%Z; now left|]. clearbody tr. intros r I.
  apply (C79_in_flight ex_setup ex_flight_program OK SH ex_bob KP NS ex_fly1 ex_fly2 2 tr [] ltac:(vm_compute; reflexivity) E 3) with (l := [(ex_bob, 1%Z)]); [|exact R0|exact I| |reflexivity].
  - intros j L. now apply (never_ran _ _ _ _ _ _ _ _ _ 3).
  - intros j p L IP.
    assert (W : forall j, j < 3 -> writes_begun ex_setup gauge_code ex_flight_program gauge_writes ex_bob (ex_fly1 ++ ex_fly2) j =
      nth j [[IWrite GInc; IWrite GDec; IWrite GInc]; [IWrite GInc; IWrite GDec]; []] []).
    { clear. intros j L. destruct j as [|[|[|j]]]; [vm_compute; reflexivity..|]. lia. }
    rewrite (W j L) in IP. clear -L IP. apply parts in IP as (k & K & ->). destruct j as [|[|[|j]]]; [| | |lia];
      cbn in K; destruct k as [|[|[|[|k]]]]; cbn; lia.
Qed.

Example C79_float_case : let s := ex_ffly1 ++ ex_ffly2 in
  call_underway ex_setup float_code ex_fwriter_program ex_ffly1 1 = None /\ ex_fwriter_results ex_ffly1 1 = [] /\
  ex_fwriter_results s 1 = [Collected [(ex_ann, f_three)]] /\
  writes_finished ex_setup float_code ex_fwriter_program float_writes ex_ann ex_ffly1 0 = [FWrite (FSet f_half)] /\
  writes_begun ex_setup float_code ex_fwriter_program float_writes ex_ann s 0 = [FWrite (FSet f_half); FWrite (FIncBy f_two); FWrite (FSet f_three); FWrite FInc] /\
  map (fun k => float_after (firstn k (writes_begun ex_setup float_code ex_fwriter_program float_writes ex_ann s 0))) [1; 2; 3; 4] =
    [4602678819172646912; 4612811918334230528; 4613937818241073152; 4616189618054758400]%N.
Proof. vm_compute. repeat split. Qed.

(** The same for dense vecs. *)
Theorem C79_dense_moment : forall (L : lgset) Sh Op Res Mic V St wt (w : dense_setup L) (m : metric_code Sh Op Res Mic V) spec (st_new : St) aview
  (P : dense_program L Op Res),
  dense_ok_setup L wt w -> dense_shaped wt w P -> good_metric (mc_machine m) (mc_new m) (mc_view m) spec st_new aview ->
  forall (geq : forall a b : lg_group L, {a = b} + {a <> b}) wr, wr (mc_read m) = false ->
  forall s0 s1 i tr rest, dense_underway w m P s0 i = None ->
  dense_finished w m P (s0 ++ s1) i = dense_finished w m P s0 i ++ (ECollect, tr) :: rest ->
  forall l g r, dense_result_of ECollect tr = DCollected l -> In (g, r) l ->
  exists log x x', legal spec st_new log x /\ spec i (mc_read m) x = Some (x', r) /\
    forall j, initial (dense_writes_finished w m P geq wr g s0 j) (writes_in wr j log) /\
      initial (writes_in wr j log) (dense_writes_begun w m P geq wr g (s0 ++ s1) j).
Proof. exact @dense_row_moment. Qed.
Print Assumptions C79_dense_moment.

Theorem C79_dense_gauges : forall (L : lgset) wt (w : dense_setup L) (P : dense_program L igauge_op Z), dense_ok_setup L wt w -> dense_shaped wt w P ->
  forall geq g, (forall j hd x, P j hd <> Some (EUpdate g (IWrite (GSet x)))) ->
  forall s0 s1 i tr rest, dense_underway w gauge_code P s0 i = None ->
  dense_finished w gauge_code P (s0 ++ s1) i = dense_finished w gauge_code P s0 i ++ (ECollect, tr) :: rest ->
  forall n, (forall j, n <= j -> dense_finished w gauge_code P (s0 ++ s1) j = [] /\ dense_underway w gauge_code P (s0 ++ s1) j = None) ->
  forall l r, dense_result_of ECollect tr = DCollected l -> In (g, r) l ->
  forall lo hi : nat -> Z,
  (forall j p, j < n -> initial (dense_writes_finished w gauge_code P geq gauge_writes g s0 j) p ->
     initial p (dense_writes_begun w gauge_code P geq gauge_writes g (s0 ++ s1) j) -> (lo j <= sum_over gauge_delta p <= hi j)%Z) ->
  (- 2 ^ 63 <= sum_over lo (seq 0 n))%Z -> (sum_over hi (seq 0 n) < 2 ^ 63)%Z ->
  (sum_over lo (seq 0 n) <= r <= sum_over hi (seq 0 n))%Z.
Proof. exact @dense_gauge_between. Qed.
Print Assumptions C79_dense_gauges.

Theorem C79_dense_in_flight : forall (L : lgset) wt (w : dense_setup L) (P : dense_program L igauge_op Z), dense_ok_setup L wt w -> dense_shaped wt w P ->
  forall geq g, (forall j hd x, P j hd <> Some (EUpdate g (IWrite (GSet x)))) ->
  forall s0 s1 i tr rest, dense_underway w gauge_code P s0 i = None ->
  dense_finished w gauge_code P (s0 ++ s1) i = dense_finished w gauge_code P s0 i ++ (ECollect, tr) :: rest ->
  forall n, (forall j, n <= j -> dense_finished w gauge_code P (s0 ++ s1) j = [] /\ dense_underway w gauge_code P (s0 ++ s1) j = None) ->
  forall l r, dense_result_of ECollect tr = DCollected l -> In (g, r) l ->
  (forall j p, j < n -> initial p (dense_writes_begun w gauge_code P geq gauge_writes g (s0 ++ s1) j) -> (0 <= sum_over gauge_delta p <= 1)%Z) ->
  (Z.of_nat n < 2 ^ 63)%Z -> (0 <= r <= Z.of_nat n)%Z.
Proof. exact @dense_gauge_in_flight. Qed.
Print Assumptions C79_dense_in_flight.

Theorem C79_dense_one_writer : forall (L : lgset) wt (w : dense_setup L) (P : dense_program L igauge_op Z), dense_ok_setup L wt w -> dense_shaped wt w P ->
  forall geq g s0 s1 i tr rest, dense_underway w gauge_code P s0 i = None ->
  dense_finished w gauge_code P (s0 ++ s1) i = dense_finished w gauge_code P s0 i ++ (ECollect, tr) :: rest ->
  forall k, (forall j, j <> k -> dense_writes_begun w gauge_code P geq gauge_writes g (s0 ++ s1) j = []) ->
  forall l r, dense_result_of ECollect tr = DCollected l -> In (g, r) l ->
  exists p, initial (dense_writes_finished w gauge_code P geq gauge_writes g s0 k) p /\
    initial p (dense_writes_begun w gauge_code P geq gauge_writes g (s0 ++ s1) k) /\ r = gauge_after p.
Proof. exact @dense_gauge_alone. Qed.
Print Assumptions C79_dense_one_writer.

Theorem C79_dense_one_float_writer : forall (L : lgset) wt (w : dense_setup L) (P : dense_program L float_op N), dense_ok_setup L wt w -> dense_shaped wt w P ->
  forall geq g s0 s1 i tr rest, dense_underway w float_code P s0 i = None ->
  dense_finished w float_code P (s0 ++ s1) i = dense_finished w float_code P s0 i ++ (ECollect, tr) :: rest ->
  forall k, (forall j, j <> k -> dense_writes_begun w float_code P geq float_writes g (s0 ++ s1) j = []) ->
  forall l r, dense_result_of ECollect tr = DCollected l -> In (g, r) l ->
  exists p, initial (dense_writes_finished w float_code P geq float_writes g s0 k) p /\
    initial p (dense_writes_begun w float_code P geq float_writes g (s0 ++ s1) k) /\ r = float_after p.
Proof. exact @dense_float_alone. Qed.
Print Assumptions C79_dense_one_float_writer.

(** Both threads are in when the collection begins; it shows 2, while one goes out and in. *)
Example C79_dense_hypotheses : dense_shaped ex_dense_wt ex_dense_setup ex_dflight_program /\
  forall j hd x, ex_dflight_program j hd <> Some (upd_call ex_get_a (IWrite (GSet x))).
Proof.
  split.
  - intros i hd call g H G. unfold ex_dflight_program, dense_in_turn in H. destruct (in_turn_in _ _ _ _ _ H) as (l & IL & C).
    cbn in IL. repeat (destruct IL as [<-|IL]; [cbn in C; repeat (destruct C as [<-|C]; [cbn in G; try discriminate G; injection G as <-; reflexivity|]); contradiction|]). contradiction.
  - intros j hd x H. unfold ex_dflight_program, dense_in_turn in H. destruct (in_turn_in _ _ _ _ _ H) as (l & IL & C).
    cbn in IL. repeat (destruct IL as [<-|IL]; [cbn in C; repeat (destruct C as [C|C]; [discriminate C|]); contradiction|]). contradiction.
Qed.

Example C79_dense_case : let s := ex_dfly1 ++ ex_dfly2 in
  dense_underway ex_dense_setup gauge_code ex_dflight_program ex_dfly1 2 = None /\ ex_dflight_results ex_dfly1 2 = [] /\
  ex_dflight_results s 2 = [DCollected [(ex_get_a, 2%Z)]] /\
  map (dense_writes_finished ex_dense_setup gauge_code ex_dflight_program group_eq_dec gauge_writes ex_get_a ex_dfly1) [0; 1] = [[IWrite GInc]; [IWrite GInc]] /\
  map (dense_writes_begun ex_dense_setup gauge_code ex_dflight_program group_eq_dec gauge_writes ex_get_a s) [0; 1] =
    [[IWrite GInc; IWrite GDec]; [IWrite GInc; IWrite GDec; IWrite GInc]].
Proof. vm_conj. Qed.
