(** Property C79, under the memory model of atomics: [E] is any execution it allows,
    [ks] are the calls on one gauge and [ts] those that write, by thread. *)
From Coq Require Import List NArith ZArith Bool Arith Lia.
From Verif Require Import Base FloatModel MetricModel ConcModel ConcSpec ConcWeakModel ConcWeakSpec ConcWeakTheorems ConcWeakExamples
  ConcMomentSpec ConcWeakMomentSpec ConcWeakMoment.
Import ListNotations.
Local Open Scope nat_scope.

(** What a read sees is an initial part of the writes of every thread, with those before it. *)
Theorem C79_weak_gauge : forall E ks p k ts, consistent E -> calls_of igauge_does E ks -> threads_of E ks igauge_writes ts ->
  nth_error ks p = Some k -> k_op k = IRead ->
  exists seen, k_res k = outcome_of ks gauge_result (x_init E 0) seen /\ cut_at E ks ts k seen.
Proof. exact weak_gauge_moment. Qed.
Print Assumptions C79_weak_gauge.

Theorem C79_weak_float : forall E ks p k ts, consistent E -> calls_of float_does E ks -> threads_of E ks ConcWeakSpec.float_writes ts ->
  nth_error ks p = Some k -> k_op k = FRead ->
  exists seen, k_res k = outcome_of ks float_result (x_init E 0) seen /\ cut_at E ks ts k seen.
Proof. exact weak_float_moment. Qed.
Print Assumptions C79_weak_float.

(** Gauges that nobody sets: bounds on what each thread may have added, add up. *)
Theorem C79_weak_gauges : forall E ks p k ts, consistent E -> calls_of igauge_does E ks -> threads_of E ks igauge_writes ts ->
  nth_error ks p = Some k -> k_op k = IRead -> x_init E 0 = 0%Z -> (forall k', In k' ks -> is_set (k_op k') = false) ->
  forall lo hi : list nat -> Z,
  (forall t c, In t ts -> initial c t ->
     (forall q k', nth_error ks q = Some k' -> In q t -> (before E k' k -> In q c) /\ (before E k k' -> ~ In q c)) ->
     (lo t <= sum_over gauge_delta (ops_of_calls ks c) <= hi t)%Z) ->
  (- 2 ^ 63 <= sum_over lo ts)%Z -> (sum_over hi ts < 2 ^ 63)%Z -> (sum_over lo ts <= k_res k <= sum_over hi ts)%Z.
Proof. exact weak_gauge_between. Qed.
Print Assumptions C79_weak_gauges.

Theorem C79_weak_in_flight : forall E ks p k ts, consistent E -> calls_of igauge_does E ks -> threads_of E ks igauge_writes ts ->
  nth_error ks p = Some k -> k_op k = IRead -> x_init E 0 = 0%Z -> (forall k', In k' ks -> is_set (k_op k') = false) ->
  (forall t c, In t ts -> initial c t -> (0 <= sum_over gauge_delta (ops_of_calls ks c) <= 1)%Z) ->
  (Z.of_nat (length ts) < 2 ^ 63)%Z -> (0 <= k_res k <= Z.of_nat (length ts))%Z.
Proof. exact weak_gauge_in_flight. Qed.
Print Assumptions C79_weak_in_flight.

(** Gauges that one thread writes. *)
Theorem C79_weak_one_writer : forall E ks p k t, consistent E -> calls_of igauge_does E ks -> threads_of E ks igauge_writes [t] ->
  nth_error ks p = Some k -> k_op k = IRead ->
  exists c, initial c t /\ k_res k = outcome_of ks gauge_result (x_init E 0) c /\
    forall q k', nth_error ks q = Some k' -> In q t -> (before E k' k -> In q c) /\ (before E k k' -> ~ In q c).
Proof. exact weak_gauge_alone. Qed.
Print Assumptions C79_weak_one_writer.

Theorem C79_weak_one_float_writer : forall E ks p k t, consistent E -> calls_of float_does E ks -> threads_of E ks ConcWeakSpec.float_writes [t] ->
  nth_error ks p = Some k -> k_op k = FRead ->
  exists c, initial c t /\ k_res k = outcome_of ks float_result (x_init E 0) c /\
    forall q k', nth_error ks q = Some k' -> In q t -> (before E k' k -> In q c) /\ (before E k k' -> ~ In q c).
Proof. exact weak_float_alone. Qed.
Print Assumptions C79_weak_one_float_writer.

(** Two threads go in and out; the reads see them both in, then one of them, though all
    is over in the order of modifications. *)
Definition ex_flight_F : finite_execution Z :=
  {| fx_accesses := [(0%nat, AUpdate 0 1); (0%nat, AUpdate 1 2); (0%nat, AUpdate 2 1); (0%nat, AUpdate 1 0); (0%nat, ARead 2); (0%nat, ARead 1)]%Z;
     fx_init := 0%Z; fx_rf := [None; Some 0; Some 1; Some 2; Some 1; Some 2]; fx_mo := [[0; 1; 2; 3]]; fx_hb := [(0, 2); (1, 3); (0, 4); (0, 5); (4, 5)] |}.
Definition ex_flight_ks : list (wcall igauge_op Z) :=
  [call (IWrite GInc) 0%Z [0]; call (IWrite GInc) 0%Z [1]; call (IWrite GDec) 0%Z [2]; call (IWrite GDec) 0%Z [3]; call IRead 2%Z [4]; call IRead 1%Z [5]].

Example C79_weak_case : consistent (execution_of ex_flight_F) /\ calls_of igauge_does (execution_of ex_flight_F) ex_flight_ks /\
  threads_of (execution_of ex_flight_F) ex_flight_ks igauge_writes [[0; 2]; [1; 3]] /\
  (forall k', In k' ex_flight_ks -> is_set (k_op k') = false) /\
  forall t c, In t [[0; 2]; [1; 3]] -> initial c t -> (0 <= sum_over gauge_delta (ops_of_calls ex_flight_ks c) <= 1)%Z.
Proof.
  split; [apply (check_ok Z.eqb z_eqb_ok); vm_compute; reflexivity|]. split; [|split; [|split]].
  - constructor.
    + all_calls; (eexists; split; [constructor; [reflexivity|constructor]|]);
        [apply (ID_update GInc 0); discriminate|apply (ID_update GInc 1); discriminate|apply (ID_update GDec 2); discriminate|apply (ID_update GDec 1); discriminate|constructor|constructor].
    + cbn. nodup.
    + mo_cells.
  - split; [|split].
    + cbn. nodup.
    + intros p. split.
      * intros I. cbn in I. repeat (destruct I as [<-|I]; [eexists; split; reflexivity|]). contradiction.
      * intros (k & P & W). destruct p as [|[|[|[|[|[|p]]]]]]; cbn in P; try (cbn; tauto); try (injection P as <-; discriminate W). destruct p; discriminate P.
    + intros t [<-|[<-|[]]]; (constructor; [constructor; [|constructor]|constructor; constructor]); intros k k' P Q; cbn in P, Q; injection P as <-; injection Q as <-; intros e f [<-|[]] [<-|[]]; apply inb_ok; reflexivity.
  - intros k' I. cbn in I. repeat (destruct I as [<-|I]; [reflexivity|]). contradiction.
  - intros t c [<-|[<-|[]]] (d & E); (destruct c as [|x [|y [|z c]]]; [| | |discriminate E]);
      try (injection E as <- <- E); try (injection E as <- E); cbn; lia.
Qed.

(** The theorem, applied to the first read. *)
Example C79_weak_applied : (0 <= k_res (call IRead 2%Z [4%nat]) <= 2)%Z.
Proof.
  destruct C79_weak_case as (CON & KS & TS & NS & FL).
  exact (C79_weak_in_flight _ _ 4 _ _ CON KS TS eq_refl eq_refl eq_refl NS FL eq_refl).
Qed.

(** One thread sets a gauge to 7 and lowers it; a read that comes after the first of
    these sees 7. *)
Definition ex_one_F : finite_execution Z :=
  {| fx_accesses := [(0%nat, AWrite 7); (0%nat, AUpdate 7 6); (0%nat, ARead 7)]%Z;
     fx_init := 0%Z; fx_rf := [None; Some 0; Some 0]; fx_mo := [[0; 1]]; fx_hb := [(0, 1); (0, 2)] |}.
Definition ex_one_ks : list (wcall igauge_op Z) := [call (IWrite (GSet 7)) 0%Z [0]; call (IWrite GDec) 0%Z [1]; call IRead 7%Z [2]].

Example C79_weak_one_case : consistent (execution_of ex_one_F) /\ calls_of igauge_does (execution_of ex_one_F) ex_one_ks /\
  threads_of (execution_of ex_one_F) ex_one_ks igauge_writes [[0; 1]] /\
  map (outcome_of ex_one_ks gauge_result 0%Z) [[]; [0]; [0; 1]] = [0; 7; 6]%Z.
Proof.
  split; [apply (check_ok Z.eqb z_eqb_ok); vm_compute; reflexivity|]. split; [|split; [|reflexivity]].
  - constructor.
    + all_calls; (eexists; split; [constructor; [reflexivity|constructor]|]); [constructor|apply (ID_update GDec 7); discriminate|constructor].
    + cbn. nodup.
    + mo_cells.
  - split; [|split].
    + cbn. nodup.
    + intros p. split.
      * intros I. cbn in I. repeat (destruct I as [<-|I]; [eexists; split; reflexivity|]). contradiction.
      * intros (k & P & W). destruct p as [|[|[|p]]]; cbn in P; try (cbn; tauto); try (injection P as <-; discriminate W). destruct p; discriminate P.
    + intros t [<-|[]]; (constructor; [constructor; [|constructor]|constructor; constructor]); intros k k' P Q; cbn in P, Q; injection P as <-; injection Q as <-; intros e f [<-|[]] [<-|[]]; apply inb_ok; reflexivity.
Qed.

(** The float gauge of C66_float_case, raised by two threads; and one that a thread sets
    to 2 and raises by 1, read in between. *)
Definition ex_fone_F : finite_execution N :=
  {| fx_accesses := [(0%nat, AWrite (f_of_Z 2)); (0%nat, ARead (f_of_Z 2)); (0%nat, AUpdate (f_of_Z 2) (f_of_Z 3)); (0%nat, ARead (f_of_Z 2))];
     fx_init := 0%N; fx_rf := [None; Some 0; Some 0; Some 0]; fx_mo := [[0; 2]]; fx_hb := chain [0; 1; 2] ++ [(0, 3)] |}.
Definition ex_fone_ks : list (wcall float_op N) := [call (FWrite (FSet (f_of_Z 2))) 0%N [0]; call (FWrite FInc) 0%N [1; 2]; call FRead (f_of_Z 2) [3]].

Example C79_weak_float_case :
  threads_of (execution_of ex_float_F) ex_float_ks ConcWeakSpec.float_writes [[0]; [1]] /\
  consistent (execution_of ex_fone_F) /\ calls_of float_does (execution_of ex_fone_F) ex_fone_ks /\
  threads_of (execution_of ex_fone_F) ex_fone_ks ConcWeakSpec.float_writes [[0; 1]] /\
  map (outcome_of ex_fone_ks float_result 0%N) [[]; [0]; [0; 1]] = [0%N; f_of_Z 2; f_of_Z 3].
Proof.
  split; [|split; [apply (check_ok N.eqb n_eqb_ok); vm_compute; reflexivity|split; [|split; [|vm_compute; reflexivity]]]].
  - split; [cbn; nodup|]. split.
    + intros p. split.
      * intros I. cbn in I. repeat (destruct I as [<-|I]; [eexists; split; reflexivity|]). contradiction.
      * intros (k & P & W). destruct p as [|[|[|p]]]; cbn in P; try (cbn; tauto); try (injection P as <-; discriminate W). destruct p; discriminate P.
    + intros t [<-|[<-|[]]]; (constructor; [constructor|constructor]).
  - constructor.
    + all_calls; (eexists; split; [repeat (constructor; [reflexivity|]); constructor|]).
      * exact (FD_set (f_of_Z 2)).
      * apply (FD_loop FInc f_one); [reflexivity|]. replace (f_of_Z 3) with (f_add (f_of_Z 2) f_one) by (vm_compute; reflexivity). apply LD_done.
      * constructor.
    + cbn. nodup.
    + mo_cells.
  - split; [cbn; nodup|]. split.
    + intros p. split.
      * intros I. cbn in I. repeat (destruct I as [<-|I]; [eexists; split; reflexivity|]). contradiction.
      * intros (k & P & W). destruct p as [|[|[|p]]]; cbn in P; try (cbn; tauto); try (injection P as <-; discriminate W). destruct p; discriminate P.
    + intros t [<-|[]]; (constructor; [constructor; [|constructor]|constructor; constructor]); intros k k' P Q; cbn in P, Q; injection P as <-; injection Q as <-;
        intros e f [<-|[]] [<-|[<-|[]]]; apply inb_ok; reflexivity.
Qed.
