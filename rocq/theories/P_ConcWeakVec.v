(** Property C80: rows of collections of vecs under the memory model of atomics.  [E] is
    any execution it allows, [ks] are the calls on the metrics of one vec and its
    collections, [c] is the cell of a metric. *)
From Coq Require Import List NArith ZArith Bool Arith Lia.
From Verif Require Import Base FloatModel MetricModel ConcModel ConcSpec ConcWeakModel ConcWeakSpec ConcWeakTheorems ConcWeakExamples
  ConcMomentSpec ConcWeakMomentSpec ConcWeakVecModel ConcWeakVecSpec ConcWeakVec.
Import ListNotations.
Local Open Scope nat_scope.

(** Counters: a row is exact after all increments of its metric; without wrapping it has
    the increments before the collection and none of those after it. *)
Theorem C80_counter : forall E ks k c v, consistent E -> calls_of (vec_does counter_does) E ks ->
  In k ks -> has_row k c v -> (x_init E c < 2 ^ 64)%N ->
  ((forall k', In k' ks -> changes_at increments c (k_op k') = true -> before E k' k) ->
   v = ((x_init E c + all_added_at c ks) mod 2 ^ 64)%N) /\
  ((x_init E c + all_added_at c ks < 2 ^ 64)%N ->
   (forall qs, NoDup qs -> (forall q, In q qs -> exists k', nth_error ks q = Some k' /\ before E k' k) ->
      (x_init E c + added_at c ks qs <= v)%N) /\
   (forall qs, NoDup qs -> (forall q, In q qs -> exists k', nth_error ks q = Some k' /\ before E k k') ->
      (v + added_at c ks qs <= x_init E c + all_added_at c ks)%N)).
Proof. exact counter_row. Qed.
Print Assumptions C80_counter.

(** The rows of a metric do not fall from one collection to a later one. *)
Theorem C80_grow : forall E ks k k' c v w, consistent E -> calls_of (vec_does counter_does) E ks ->
  In k ks -> In k' ks -> has_row k c v -> has_row k' c w -> before E k k' ->
  (x_init E c + all_added_at c ks < 2 ^ 64)%N -> (v <= w)%N.
Proof. exact counter_rows_grow. Qed.
Print Assumptions C80_grow.

(** Gauges: a row is the value after an initial part of the writes to its metric by every
    thread, with those before the collection and without those after it. *)
Theorem C80_gauge : forall E ks k c v ts, consistent E -> calls_of (vec_does igauge_does) E ks -> threads_of E ks (changes_at igauge_writes c) ts ->
  In k ks -> has_row k c v -> exists seen, v = outcome_of ks gauge_at (x_init E c) seen /\ cut_at E ks ts k seen.
Proof. exact gauge_row. Qed.
Print Assumptions C80_gauge.

Theorem C80_float : forall E ks k c v ts, consistent E -> calls_of (vec_does float_does) E ks -> threads_of E ks (changes_at ConcWeakSpec.float_writes c) ts ->
  In k ks -> has_row k c v -> exists seen, v = outcome_of ks float_at (x_init E c) seen /\ cut_at E ks ts k seen.
Proof. exact float_row. Qed.
Print Assumptions C80_float.

(** What rows see only grows from one collection to a later one. *)
Theorem C80_gauge_grow : forall E ks c, consistent E -> calls_of (vec_does igauge_does) E ks ->
  exists order, order_of_changes E ks (changes_at igauge_writes c) order /\
    (forall k v, In k ks -> has_row k c v -> exists seen, explained E ks gauge_at order (x_init E c) k v seen) /\
    (forall k k' v w, In k ks -> In k' ks -> has_row k c v -> has_row k' c w -> before E k k' ->
       exists seen more, explained E ks gauge_at order (x_init E c) k v seen /\
         explained E ks gauge_at order (x_init E c) k' w (seen ++ more)).
Proof. exact gauge_cells. Qed.
Print Assumptions C80_gauge_grow.

Theorem C80_float_grow : forall E ks c, consistent E -> calls_of (vec_does float_does) E ks ->
  exists order, order_of_changes E ks (changes_at ConcWeakSpec.float_writes c) order /\
    (forall k v, In k ks -> has_row k c v -> exists seen, explained E ks float_at order (x_init E c) k v seen) /\
    (forall k k' v w, In k ks -> In k' ks -> has_row k c v -> has_row k' c w -> before E k k' ->
       exists seen more, explained E ks float_at order (x_init E c) k v seen /\
         explained E ks float_at order (x_init E c) k' w (seen ++ more)).
Proof. exact float_cells. Qed.
Print Assumptions C80_float_grow.

(** Metrics that nobody sets: bounds on what each thread may have added, add up; so
    metrics raised and lowered in turn stay between 0 and the number of threads. *)
Theorem C80_gauges : forall E ks k c v ts, consistent E -> calls_of (vec_does igauge_does) E ks -> threads_of E ks (changes_at igauge_writes c) ts ->
  In k ks -> has_row k c v -> x_init E c = 0%Z -> (forall k' u, In k' ks -> k_op k' = VCall c u -> is_set u = false) ->
  forall lo hi : list nat -> Z,
  (forall t i, In t ts -> initial i t ->
     (forall q k', nth_error ks q = Some k' -> In q t -> (before E k' k -> In q i) /\ (before E k k' -> ~ In q i)) ->
     (lo t <= sum_over (fun op => gauge_delta (on_metric IRead op)) (ops_of_calls ks i) <= hi t)%Z) ->
  (- 2 ^ 63 <= sum_over lo ts)%Z -> (sum_over hi ts < 2 ^ 63)%Z -> (sum_over lo ts <= v <= sum_over hi ts)%Z.
Proof. exact gauge_row_between. Qed.
Print Assumptions C80_gauges.

Theorem C80_in_flight : forall E ks k c v ts, consistent E -> calls_of (vec_does igauge_does) E ks -> threads_of E ks (changes_at igauge_writes c) ts ->
  In k ks -> has_row k c v -> x_init E c = 0%Z -> (forall k' u, In k' ks -> k_op k' = VCall c u -> is_set u = false) ->
  (forall t i, In t ts -> initial i t -> (0 <= sum_over (fun op => gauge_delta (on_metric IRead op)) (ops_of_calls ks i) <= 1)%Z) ->
  (Z.of_nat (length ts) < 2 ^ 63)%Z -> (0 <= v <= Z.of_nat (length ts))%Z.
Proof. exact gauge_row_in_flight. Qed.
Print Assumptions C80_in_flight.

(** After all writes to its metric, a row is exact. *)
Theorem C80_gauge_exact : forall E ks k c v, consistent E -> calls_of (vec_does igauge_does) E ks ->
  In k ks -> has_row k c v -> (- 2 ^ 63 <= x_init E c < 2 ^ 63)%Z -> (forall k' u, In k' ks -> k_op k' = VCall c u -> is_set u = false) ->
  (forall k', In k' ks -> changes_at igauge_writes c (k_op k') = true -> before E k' k) ->
  v = wrapped (x_init E c + sum_over (fun k' => match k_op k' with VCall c' u => if Nat.eqb c' c then gauge_delta u else 0 | VCollect => 0 end)%Z ks).
Proof. exact gauge_row_exact. Qed.
Print Assumptions C80_gauge_exact.

(** Metrics that one thread writes. *)
Theorem C80_one_writer : forall E ks k c v t, consistent E -> calls_of (vec_does igauge_does) E ks -> threads_of E ks (changes_at igauge_writes c) [t] ->
  In k ks -> has_row k c v ->
  exists i, initial i t /\ v = outcome_of ks gauge_at (x_init E c) i /\
    forall q k', nth_error ks q = Some k' -> In q t -> (before E k' k -> In q i) /\ (before E k k' -> ~ In q i).
Proof. exact gauge_row_alone. Qed.
Print Assumptions C80_one_writer.

Theorem C80_one_float_writer : forall E ks k c v t, consistent E -> calls_of (vec_does float_does) E ks -> threads_of E ks (changes_at ConcWeakSpec.float_writes c) [t] ->
  In k ks -> has_row k c v ->
  exists i, initial i t /\ v = outcome_of ks float_at (x_init E c) i /\
    forall q k', nth_error ks q = Some k' -> In q t -> (before E k' k -> In q i) /\ (before E k k' -> ~ In q i).
Proof. exact float_row_alone. Qed.
Print Assumptions C80_one_float_writer.

(** A thread counts in cell 0, then 5 in cell 1, where another thread counts too.  The
    first collection loads cell 1 with the 5 and then cell 0 without what came before
    them: each row is a moment of its metric, but the rows are not a moment of the vec.
    The second collection comes after all of it. *)
Definition ex_vec_F : finite_execution N :=
  {| fx_accesses := [(0%nat, AUpdate 0 1); (1%nat, AUpdate 0 5); (1%nat, AUpdate 5 6); (1%nat, ARead 5); (0%nat, ARead 0); (1%nat, ARead 6); (0%nat, ARead 1)]%N;
     fx_init := 0%N; fx_rf := [None; None; Some 1; Some 1; None; Some 2; Some 0]; fx_mo := [[0]; [1; 2]];
     fx_hb := [(0, 1); (3, 4); (3, 5); (3, 6); (4, 5); (4, 6); (5, 6); (0, 5); (0, 6); (1, 5); (1, 6); (2, 5); (2, 6)] |}.
Definition ex_vec_k1 : wcall (vop counter_op) (vres N) := call VCollect (VRows [(1%nat, 5); (0%nat, 0)]%N) [3; 4].
Definition ex_vec_k2 : wcall (vop counter_op) (vres N) := call VCollect (VRows [(1%nat, 6); (0%nat, 1)]%N) [5; 6].
Definition ex_vec_ks : list (wcall (vop counter_op) (vres N)) :=
  [call (VCall 0 KInc) (VOne 0%N) [0]; call (VCall 1 (KIncBy 5)) (VOne 0%N) [1]; call (VCall 1 KInc) (VOne 0%N) [2]; ex_vec_k1; ex_vec_k2].

Example C80_counter_case : let E := execution_of ex_vec_F in
  consistent E /\ calls_of (vec_does counter_does) E ex_vec_ks /\
  has_row ex_vec_k1 1 5%N /\ has_row ex_vec_k1 0 0%N /\ has_row ex_vec_k2 1 6%N /\ before E ex_vec_k1 ex_vec_k2 /\
  (forall c k', In k' ex_vec_ks -> changes_at increments c (k_op k') = true -> before E k' ex_vec_k2) /\
  map (fun c => all_added_at c ex_vec_ks) [0; 1] = [1; 6]%N /\ added_at 1 ex_vec_ks [1] = 5%N.
Proof.
  split; [apply (check_ok N.eqb n_eqb_ok); vm_compute; reflexivity|]. split; [|split; [|split; [|split; [|split; [|split; [|split; reflexivity]]]]]].
  - constructor.
    + all_calls; (eexists; split; [repeat (constructor; [reflexivity|]); constructor|]).
      * exact (VD_call counter_does 0 _ _ _ (KD_inc 0%N)).
      * exact (VD_call counter_does 1 _ _ _ (KD_inc_by 5 0%N)).
      * exact (VD_call counter_does 1 _ _ _ (KD_inc 5%N)).
      * exact (VD_collect counter_does [(1%nat, 5); (0%nat, 0)]%N).
      * exact (VD_collect counter_does [(1%nat, 6); (0%nat, 1)]%N).
    + cbn. nodup.
    + mo_cells.
  - eexists. split; [reflexivity|]. now left.
  - eexists. split; [reflexivity|]. right. now left.
  - eexists. split; [reflexivity|]. now left.
  - intros e f I J. apply inb_ok. cbn in I, J. repeat (destruct I as [<-|I]; [repeat (destruct J as [<-|J]; [reflexivity|]); contradiction|]). contradiction.
  - intros c k' I C e f A J. apply inb_ok. cbn in I, J. repeat (destruct I as [<-|I]; [try discriminate C; cbn in A; destruct A as [<-|[]]; repeat (destruct J as [<-|J]; [reflexivity|]); contradiction|]). contradiction.
Qed.

(** The theorem, applied to the last row. *)
Example C80_counter_applied : forall v, has_row ex_vec_k2 1 v -> v = 6%N.
Proof.
  intros v R. destruct C80_counter_case as (CON & KS & _ & _ & _ & _ & ALL & _).
  destruct (C80_counter _ _ ex_vec_k2 1 v CON KS ltac:(cbn; tauto) R eq_refl) as [X _]. exact (X (ALL 1%nat)).
Qed.

(** Two threads go in, in cell 0, and one of them out; the other sets cell 1 to 7.  A
    collection sees them both in, one after all of this sees one. *)
Definition ex_vgauge_F : finite_execution Z :=
  {| fx_accesses := [(0%nat, AUpdate 0 1); (0%nat, AUpdate 1 2); (1%nat, AWrite 7); (0%nat, AUpdate 2 1); (0%nat, ARead 2); (1%nat, ARead 7); (0%nat, ARead 1); (1%nat, ARead 7)]%Z;
     fx_init := 0%Z; fx_rf := [None; Some 0; None; Some 1; Some 1; Some 2; Some 3; Some 2]; fx_mo := [[0; 1; 3]; [2]];
     fx_hb := [(0, 3); (1, 2); (4, 5); (0, 6); (1, 6); (2, 6); (3, 6); (4, 6); (5, 6); (0, 7); (1, 7); (2, 7); (3, 7); (4, 7); (5, 7); (6, 7)] |}.
Definition ex_vgauge_k1 : wcall (vop igauge_op) (vres Z) := call VCollect (VRows [(0%nat, 2); (1%nat, 7)]%Z) [4; 5].
Definition ex_vgauge_k2 : wcall (vop igauge_op) (vres Z) := call VCollect (VRows [(0%nat, 1); (1%nat, 7)]%Z) [6; 7].
Definition ex_vgauge_ks : list (wcall (vop igauge_op) (vres Z)) :=
  [call (VCall 0 (IWrite GInc)) (VOne 0%Z) [0]; call (VCall 0 (IWrite GInc)) (VOne 0%Z) [1]; call (VCall 1 (IWrite (GSet 7))) (VOne 0%Z) [2];
   call (VCall 0 (IWrite GDec)) (VOne 0%Z) [3]; ex_vgauge_k1; ex_vgauge_k2].

Example C80_gauge_case : let E := execution_of ex_vgauge_F in
  consistent E /\ calls_of (vec_does igauge_does) E ex_vgauge_ks /\
  has_row ex_vgauge_k1 0 2%Z /\ has_row ex_vgauge_k2 0 1%Z /\ has_row ex_vgauge_k1 1 7%Z /\
  threads_of E ex_vgauge_ks (changes_at igauge_writes 0) [[0; 3]; [1]] /\ threads_of E ex_vgauge_ks (changes_at igauge_writes 1) [[2]] /\
  (forall k' u, In k' ex_vgauge_ks -> k_op k' = VCall 0 u -> is_set u = false) /\
  (forall t i, In t [[0; 3]; [1]] -> initial i t -> (0 <= sum_over (fun op => gauge_delta (on_metric IRead op)) (ops_of_calls ex_vgauge_ks i) <= 1)%Z) /\
  (forall k', In k' ex_vgauge_ks -> changes_at igauge_writes 0 (k_op k') = true -> before E k' ex_vgauge_k2) /\
  before E ex_vgauge_k1 ex_vgauge_k2.
Proof.
  split; [apply (check_ok Z.eqb z_eqb_ok); vm_compute; reflexivity|]. repeat apply conj.
  - constructor.
    + all_calls; (eexists; split; [repeat (constructor; [reflexivity|]); constructor|]).
      * exact (VD_call igauge_does 0 _ _ _ (ID_update GInc 0%Z ltac:(discriminate))).
      * exact (VD_call igauge_does 0 _ _ _ (ID_update GInc 1%Z ltac:(discriminate))).
      * exact (VD_call igauge_does 1 _ _ _ (ID_set 7%Z)).
      * exact (VD_call igauge_does 0 _ _ _ (ID_update GDec 2%Z ltac:(discriminate))).
      * exact (VD_collect igauge_does [(0%nat, 2); (1%nat, 7)]%Z).
      * exact (VD_collect igauge_does [(0%nat, 1); (1%nat, 7)]%Z).
    + cbn. nodup.
    + mo_cells.
  - eexists. split; [reflexivity|]. now left.
  - eexists. split; [reflexivity|]. now left.
  - eexists. split; [reflexivity|]. right. now left.
  - cbn. nodup.
  - intros p. split.
    + intros I. cbn in I. repeat (destruct I as [<-|I]; [eexists; split; reflexivity|]). contradiction.
    + intros (k & P & W). destruct p as [|[|[|[|[|[|p]]]]]]; cbn in P; try (cbn; tauto); try (injection P as <-; discriminate W). destruct p; discriminate P.
  - intros t [<-|[<-|[]]].
    + constructor; [constructor; [|constructor]|constructor; constructor]. intros k k' P Q; cbn in P, Q; injection P as <-; injection Q as <-; intros e f [<-|[]] [<-|[]]; apply inb_ok; reflexivity.
    + constructor; constructor.
  - cbn. nodup.
  - intros p. split.
    + intros I. cbn in I. repeat (destruct I as [<-|I]; [eexists; split; reflexivity|]). contradiction.
    + intros (k & P & W). destruct p as [|[|[|[|[|[|p]]]]]]; cbn in P; try (cbn; tauto); try (injection P as <-; discriminate W). destruct p; discriminate P.
  - intros t [<-|[]]. constructor; constructor.
  - intros k' u I. cbn in I. repeat (destruct I as [<-|I]; [intros Q; first [discriminate Q|injection Q as <-; reflexivity]|]). contradiction.
  - intros t i [<-|[<-|[]]] (d & E); (destruct i as [|x [|y [|z i]]]);
      try discriminate E; try (injection E as <- <- E); try (injection E as <- E); cbn; try lia; discriminate E.
  - intros k' I C e f A J. apply inb_ok. cbn in I, J. repeat (destruct I as [<-|I]; [try discriminate C; cbn in A; destruct A as [<-|[]]; repeat (destruct J as [<-|J]; [reflexivity|]); contradiction|]). contradiction.
  - intros e f I J. apply inb_ok. cbn in I, J. repeat (destruct I as [<-|I]; [repeat (destruct J as [<-|J]; [reflexivity|]); contradiction|]). contradiction.
Qed.

(** The theorems, applied to rows of the first and the last collection. *)
Example C80_gauge_applied : (forall v, has_row ex_vgauge_k1 0 v -> (0 <= v <= 2)%Z) /\ (forall v, has_row ex_vgauge_k2 0 v -> v = 1%Z).
Proof.
  destruct C80_gauge_case as (CON & KS & _ & _ & _ & TS & _ & NS & FL & ALL & _). split; intros v R.
  - exact (C80_in_flight _ _ ex_vgauge_k1 0 v _ CON KS TS ltac:(cbn; tauto) R eq_refl NS FL eq_refl).
  - exact (C80_gauge_exact _ _ ex_vgauge_k2 0 v CON KS ltac:(cbn; tauto) R ltac:(cbn; lia) NS ALL).
Qed.

(** A float gauge in cell 1, set to 2 and raised, collected in between. *)
Definition ex_vfloat_F : finite_execution N :=
  {| fx_accesses := [(1%nat, AWrite (f_of_Z 2)); (1%nat, ARead (f_of_Z 2)); (1%nat, AUpdate (f_of_Z 2) (f_of_Z 3)); (1%nat, ARead (f_of_Z 2))];
     fx_init := 0%N; fx_rf := [None; Some 0; Some 0; Some 0]; fx_mo := [[]; [0; 2]]; fx_hb := chain [0; 1; 2] ++ [(0, 3)] |}.
Definition ex_vfloat_k : wcall (vop float_op) (vres N) := call VCollect (VRows [(1%nat, f_of_Z 2)]) [3].
Definition ex_vfloat_ks : list (wcall (vop float_op) (vres N)) :=
  [call (VCall 1 (FWrite (FSet (f_of_Z 2)))) (VOne 0%N) [0]; call (VCall 1 (FWrite FInc)) (VOne 0%N) [1; 2]; ex_vfloat_k].

Example C80_float_case : let E := execution_of ex_vfloat_F in
  consistent E /\ calls_of (vec_does float_does) E ex_vfloat_ks /\
  has_row ex_vfloat_k 1 (f_of_Z 2) /\ threads_of E ex_vfloat_ks (changes_at ConcWeakSpec.float_writes 1) [[0; 1]] /\
  map (outcome_of ex_vfloat_ks float_at 0%N) [[]; [0]; [0; 1]] = [0%N; f_of_Z 2; f_of_Z 3].
Proof.
  split; [apply (check_ok N.eqb n_eqb_ok); vm_compute; reflexivity|]. split; [|split; [|split; [|vm_compute; reflexivity]]].
  - constructor.
    + all_calls; (eexists; split; [repeat (constructor; [reflexivity|]); constructor|]).
      * exact (VD_call float_does 1 _ _ _ (FD_set (f_of_Z 2))).
      * replace (f_of_Z 3) with (f_add (f_of_Z 2) f_one) by (vm_compute; reflexivity).
        exact (VD_call float_does 1 _ _ _ (FD_loop FInc f_one _ eq_refl (LD_done 0 f_one (f_of_Z 2)))).
      * exact (VD_collect float_does [(1%nat, f_of_Z 2)]).
    + cbn. nodup.
    + mo_cells.
  - eexists. split; [reflexivity|]. now left.
  - split; [cbn; nodup|]. split.
    + intros p. split.
      * intros I. cbn in I. repeat (destruct I as [<-|I]; [eexists; split; reflexivity|]). contradiction.
      * intros (k & P & W). destruct p as [|[|[|p]]]; cbn in P; try (cbn; tauto); try (injection P as <-; discriminate W). destruct p; discriminate P.
    + intros t [<-|[]]; (constructor; [constructor; [|constructor]|constructor; constructor]); intros k k' P Q; cbn in P, Q; injection P as <-; injection Q as <-;
        intros e f [<-|[]] [<-|[<-|[]]]; apply inb_ok; reflexivity.
Qed.
