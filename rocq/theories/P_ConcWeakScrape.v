(** Property C81: text scrapes of vecs under the memory model of atomics.  As in C80 [E] is
    any execution it allows and [ks] are the calls on the metrics of the vec and its
    collections; [visit] has the labels of the metric in each cell. *)
From Coq Require Import String List NArith ZArith Bool Arith Lia.
From Verif Require Import Base Writer NameModel NameSpec NameProofs FloatModel MetricModel LabelModel EncoderModel TextModel TextSpec TextExamples
  EncoderSpec TextTheorems ConcModel ConcSpec ConcScrapeModel ConcScrapeSpec ConcScrapeExamples TextExampleProofs
  ConcWeakModel ConcWeakSpec ConcWeakExamples ConcMomentSpec ConcWeakMomentSpec ConcWeakVecModel ConcWeakVecSpec ConcWeakScrape
  P_ConcWeakVec P_ConcWeakHistVec.
Import ListNotations.
Local Open Scope nat_scope.

(** Counters: between what the rest of the group writes, the family has one line per row,
    whose number is exact after all increments, has those before the collection and none
    of those after it. *)
Theorem C81_counter : forall (float_text : f64 -> bytes) bd, float_text_ok float_text -> forall visit : nat -> labels, (forall c, labels_valid (visit c)) ->
forall E ks k rows, consistent E -> calls_of (vec_does counter_does) E ks -> In k ks -> k_res k = VRows rows ->
  (forall c, In c (map fst rows) -> x_init E c = 0%N /\ (all_added_at c ks < 2 ^ 63)%N) ->
  forall nss base sc, scrape_of nss base (collected_family visit KCounter MCounter rows) sc ->
  exists lines, scrape_shows float_text bd sc lines /\
    family_text (full_name nss base []) KCounter
      (fun c part => exists z i, part = [i] /\ int_sample float_text (full_name nss base []) (visit c) z i /\
         ((forall k', In k' ks -> changes_at increments c (k_op k') = true -> before E k' k) -> z = Z.of_N (all_added_at c ks)) /\
         (forall qs, NoDup qs -> (forall q, In q qs -> exists k', nth_error ks q = Some k' /\ before E k' k) -> (Z.of_N (added_at c ks qs) <= z)%Z) /\
         (forall qs, NoDup qs -> (forall q, In q qs -> exists k', nth_error ks q = Some k' /\ before E k k') ->
            (z + Z.of_N (added_at c ks qs) <= Z.of_N (all_added_at c ks))%Z)) (map fst rows) lines.
Proof. exact weak_counter_text. Qed.
Print Assumptions C81_counter.

(** Of two scrapes, one before the other, no line falls. *)
Theorem C81_counter_rates : forall (float_text : f64 -> bytes) bd, float_text_ok float_text -> forall visit : nat -> labels, (forall c, labels_valid (visit c)) ->
forall E ks k k' rows0 rows, consistent E -> calls_of (vec_does counter_does) E ks ->
  In k ks -> In k' ks -> k_res k = VRows rows0 -> k_res k' = VRows rows -> before E k k' ->
  (forall c, In c (map fst rows) -> x_init E c = 0%N /\ (all_added_at c ks < 2 ^ 63)%N) -> incl (map fst rows0) (map fst rows) ->
  forall nss base sc0 sc, scrape_of nss base (collected_family visit KCounter MCounter rows0) sc0 ->
  scrape_of nss base (collected_family visit KCounter MCounter rows) sc ->
  exists lines0 lines, scrape_shows float_text bd sc0 lines0 /\ scrape_shows float_text bd sc lines /\ series_grow [] lines0 lines.
Proof. exact weak_counter_rates. Qed.
Print Assumptions C81_counter_rates.

(** Gauges of things in flight, where [ts c] are the calls of the threads on cell [c]: the
    number on each line is between 0 and the number of threads. *)
Theorem C81_in_flight : forall (float_text : f64 -> bytes) bd, float_text_ok float_text -> forall visit : nat -> labels, (forall c, labels_valid (visit c)) ->
forall E ks k rows (ts : nat -> list (list nat)), consistent E -> calls_of (vec_does igauge_does) E ks -> In k ks -> k_res k = VRows rows ->
  (forall c, In c (map fst rows) -> threads_of E ks (changes_at igauge_writes c) (ts c) /\ x_init E c = 0%Z /\
     (forall k' u, In k' ks -> k_op k' = VCall c u -> is_set u = false) /\
     (forall t i, In t (ts c) -> initial i t -> (0 <= sum_over (fun op => gauge_delta (on_metric IRead op)) (ops_of_calls ks i) <= 1)%Z) /\
     (Z.of_nat (length (ts c)) < 2 ^ 63)%Z) ->
  forall nss base sc, scrape_of nss base (collected_family visit KGauge MGauge rows) sc ->
  exists lines, scrape_shows float_text bd sc lines /\
    family_text (full_name nss base []) KGauge
      (fun c part => exists z i, part = [i] /\ int_sample float_text (full_name nss base []) (visit c) z i /\ (0 <= z <= Z.of_nat (length (ts c)))%Z) (map fst rows) lines.
Proof. exact weak_flight_text. Qed.
Print Assumptions C81_in_flight.

(** Gauges in any use, also set: the number on each line is the value after an initial
    part of the writes of each thread, with those before the collection and without those
    after it. *)
Theorem C81_gauge : forall (float_text : f64 -> bytes) bd, float_text_ok float_text -> forall visit : nat -> labels, (forall c, labels_valid (visit c)) ->
forall E ks k rows (ts : nat -> list (list nat)), consistent E -> calls_of (vec_does igauge_does) E ks -> In k ks -> k_res k = VRows rows ->
  (forall c v, In (c, v) rows -> (- 2 ^ 63 <= v < 2 ^ 63)%Z) ->
  (forall c, In c (map fst rows) -> threads_of E ks (changes_at igauge_writes c) (ts c)) ->
  forall nss base sc, scrape_of nss base (collected_family visit KGauge MGauge rows) sc ->
  exists lines, scrape_shows float_text bd sc lines /\
    family_text (full_name nss base []) KGauge
      (fun c part => exists seen i, part = [i] /\ int_sample float_text (full_name nss base []) (visit c) (outcome_of ks gauge_at (x_init E c) seen) i /\
         cut_at E ks (ts c) k seen) (map fst rows) lines.
Proof. exact weak_gauge_text. Qed.
Print Assumptions C81_gauge.

(** Float gauges likewise. *)
Theorem C81_float : forall (float_text : f64 -> bytes) bd, float_text_ok float_text -> forall visit : nat -> labels, (forall c, labels_valid (visit c)) ->
forall E ks k rows (ts : nat -> list (list nat)), consistent E -> calls_of (vec_does float_does) E ks -> In k ks -> k_res k = VRows rows ->
  (forall c v, In (c, v) rows -> (v < 2 ^ 64)%N) ->
  (forall c, In c (map fst rows) -> threads_of E ks (changes_at ConcWeakSpec.float_writes c) (ts c)) ->
  forall nss base sc, scrape_of nss base (collected_family visit KFloatGauge MFloatGauge rows) sc ->
  exists lines, scrape_shows float_text bd sc lines /\
    family_text (full_name nss base []) KFloatGauge
      (fun c part => exists seen i, part = [i] /\ float_sample float_text (full_name nss base []) (visit c) (outcome_of ks float_at (x_init E c) seen) i /\
         cut_at E ks (ts c) k seen) (map fst rows) lines.
Proof. exact weak_float_text. Qed.
Print Assumptions C81_float.

(** Histograms: the lines are those of the observations that happen before the sample, the
    same for buckets, sum and count. *)
Theorem C81_histogram : forall (float_text : f64 -> bytes) bd, float_text_ok float_text -> forall visit : nat -> labels, (forall c, labels_valid (visit c)) ->
forall n E ks rows ts, consistent E -> calls_of (hist_vec_does n) E ks -> vec_locked E ks -> (forall c, x_init E c = 0%N) ->
  (N.of_nat (length ks) < 2 ^ 63)%N -> length ts = n -> sampled ks rows ->
  forall nss base sc, scrape_of nss base (collected_family visit KHistogram (read_histogram ts) rows) sc ->
  exists lines, scrape_shows float_text bd sc lines /\
    family_text (full_name nss base []) KHistogram
      (fun h part => exists k seen bs, In k ks /\ k_op k = (h, HSample) /\ length bs = n /\ NoDup seen /\
         (forall q, In q seen <-> exists k', nth_error ks q = Some k' /\ observes_at h (k_op k') = true /\ before E k' k) /\
         (forall b v, nth_error bs b = Some v -> v = bucket_count b (map snd (ops_of_calls ks seen))) /\
         histogram_lines float_text nss base (visit h) ts bs (bucket_count n (map snd (ops_of_calls ks seen))) (sum_after 0%N (map snd (ops_of_calls ks seen))) part)
      (map fst rows) lines.
Proof. exact weak_histogram_text. Qed.
Print Assumptions C81_histogram.

(** Buckets and counts do not fall; sums may, of negative values. *)
Theorem C81_histogram_rates : forall (float_text : f64 -> bytes) bd, float_text_ok float_text -> forall visit : nat -> labels, (forall c, labels_valid (visit c)) ->
forall n E ks rows0 rows ts, consistent E -> calls_of (hist_vec_does n) E ks -> vec_locked E ks -> (forall c, x_init E c = 0%N) ->
  (N.of_nat (length ks) < 2 ^ 63)%N -> length ts = n -> sampled ks rows ->
  (forall h r0, In (h, r0) rows0 -> exists r p q k k', In (h, r) rows /\ nth_error ks p = Some k /\ nth_error ks q = Some k' /\
     k_op k = (h, HSample) /\ k_op k' = (h, HSample) /\ k_res k = r0 /\ k_res k' = r /\ before E k k') ->
  forall nss base sc0 sc, scrape_of nss base (collected_family visit KHistogram (read_histogram ts) rows0) sc0 ->
  scrape_of nss base (collected_family visit KHistogram (read_histogram ts) rows) sc ->
  exists lines0 lines, scrape_shows float_text bd sc0 lines0 /\ scrape_shows float_text bd sc lines /\ series_grow [full_name nss base [str "sum"]] lines0 lines.
Proof. exact weak_histogram_rates. Qed.
Print Assumptions C81_histogram_rates.

(** The executions of C80, scraped.  The labels are the numbers of the cells. *)
Definition ex_cell_visit (c : nat) : labels := [(str "cell"%string, LStr [(48 + N.of_nat c)%N])].
Lemma ex_cell_names : forall c, labels_valid (ex_cell_visit c).
Proof. intros c. constructor; [|constructor]. now apply valid_label_nameb_spec. Qed.

Example C81_counter_case : exists lines0 lines,
  scrape_shows ex_ryu Debug (ex_scrape (collected_family ex_cell_visit KCounter MCounter [(1%nat, 5); (0%nat, 0)]%N)) lines0 /\
  scrape_shows ex_ryu Debug (ex_scrape (collected_family ex_cell_visit KCounter MCounter [(1%nat, 6); (0%nat, 1)]%N)) lines /\ series_grow [] lines0 lines.
Proof.
  destruct C80_counter_case as (CON & KS & _ & _ & _ & B & _).
  refine (C81_counter_rates ex_ryu Debug ex_ryu_ok ex_cell_visit ex_cell_names _ _ ex_vec_k1 ex_vec_k2 _ _ CON KS _ _ eq_refl eq_refl B _ _ _ _ _ _ (ex_scrape_of _) (ex_scrape_of _)); try (cbn; tauto).
  - intros c [<-|[<-|[]]]; split; reflexivity.
  - intros c I. exact I.
Qed.
Example C81_counter_text : ex_scrape_text (collected_family ex_cell_visit KCounter MCounter [(1%nat, 5); (0%nat, 0)]%N) = ex_lines
  ["# TYPE up gauge"; "up 1"; ""; "# HELP app_hits Requests."; "# TYPE app_hits counter"; "app_hits{cell=""1""} 5"; "app_hits{cell=""0""} 0"]%string.
Proof. vm_compute. reflexivity. Qed.

(** Lines of the second scrape are exact. *)
Example C81_counter_applied : exists lines,
  scrape_shows ex_ryu Debug (ex_scrape (collected_family ex_cell_visit KCounter MCounter [(1%nat, 6); (0%nat, 1)]%N)) lines /\
  family_text (str "app_hits"%string) KCounter (fun c part => exists i, part = [i] /\
    int_sample ex_ryu (str "app_hits"%string) (ex_cell_visit c) (Z.of_N (all_added_at c ex_vec_ks)) i) [1; 0] lines.
Proof.
  destruct C80_counter_case as (CON & KS & _ & _ & _ & _ & ALL & _).
  destruct (C81_counter ex_ryu Debug ex_ryu_ok ex_cell_visit ex_cell_names _ _ ex_vec_k2 _ CON KS ltac:(cbn; tauto) eq_refl
    ltac:(intros c [<-|[<-|[]]]; split; reflexivity) _ _ _ (ex_scrape_of _)) as (lines & SH & parts & -> & F).
  eexists. split; [exact SH|]. exists parts. split; [reflexivity|].
  clear SH. change [1; 0] with (map (@fst nat N) [(1, 6%N); (0, 1%N)]). revert F. generalize (map (@fst nat N) [(1, 6%N); (0, 1%N)]) as cs. intros cs F.
  induction F as [|c part cs parts (z & i & -> & IS & EX & _) F IH]; constructor; [|exact IH].
  exists i. split; [reflexivity|]. rewrite <- (EX (ALL c)). exact IS.
Qed.

(** Two threads go in, in cell 0, one of them out, and in cell 1 the other in: the scrape
    sees two in cell 0 and nobody in cell 1. *)
Definition ex_flight_F : finite_execution Z :=
  {| fx_accesses := [(0%nat, AUpdate 0 1); (0%nat, AUpdate 1 2); (1%nat, AUpdate 0 1); (0%nat, AUpdate 2 1); (0%nat, ARead 2); (1%nat, ARead 0)]%Z;
     fx_init := 0%Z; fx_rf := [None; Some 0; None; Some 1; Some 1; None]; fx_mo := [[0; 1; 3]; [2]];
     fx_hb := [(0, 3); (1, 2); (4, 5)] |}.
Definition ex_flight_k : wcall (vop igauge_op) (vres Z) := call VCollect (VRows [(0%nat, 2); (1%nat, 0)]%Z) [4; 5].
Definition ex_flight_ks : list (wcall (vop igauge_op) (vres Z)) :=
  [call (VCall 0 (IWrite GInc)) (VOne 0%Z) [0]; call (VCall 0 (IWrite GInc)) (VOne 0%Z) [1]; call (VCall 1 (IWrite GInc)) (VOne 0%Z) [2];
   call (VCall 0 (IWrite GDec)) (VOne 0%Z) [3]; ex_flight_k].
Definition ex_flight_ts (c : nat) : list (list nat) := match c with 0 => [[0; 3]; [1]] | 1 => [[2]] | _ => [] end.

Example C81_in_flight_case : let E := execution_of ex_flight_F in
  consistent E /\ calls_of (vec_does igauge_does) E ex_flight_ks /\
  (forall c, In c [0; 1] -> threads_of E ex_flight_ks (changes_at igauge_writes c) (ex_flight_ts c) /\ x_init E c = 0%Z /\
     (forall k' u, In k' ex_flight_ks -> k_op k' = VCall c u -> is_set u = false) /\
     (forall t i, In t (ex_flight_ts c) -> initial i t -> (0 <= sum_over (fun op => gauge_delta (on_metric IRead op)) (ops_of_calls ex_flight_ks i) <= 1)%Z) /\
     (Z.of_nat (length (ex_flight_ts c)) < 2 ^ 63)%Z).
Proof.
  split; [apply (check_ok Z.eqb z_eqb_ok); vm_compute; reflexivity|]. split.
  - constructor.
    + all_calls; (eexists; split; [repeat (constructor; [reflexivity|]); constructor|]).
      * exact (VD_call igauge_does 0 _ _ _ (ID_update GInc 0%Z ltac:(discriminate))).
      * exact (VD_call igauge_does 0 _ _ _ (ID_update GInc 1%Z ltac:(discriminate))).
      * exact (VD_call igauge_does 1 _ _ _ (ID_update GInc 0%Z ltac:(discriminate))).
      * exact (VD_call igauge_does 0 _ _ _ (ID_update GDec 2%Z ltac:(discriminate))).
      * exact (VD_collect igauge_does [(0%nat, 2); (1%nat, 0)]%Z).
    + cbn. nodup.
    + mo_cells.
  - assert (NS : forall c k' u, In k' ex_flight_ks -> k_op k' = VCall c u -> is_set u = false).
    { intros c k' u I. cbn in I. repeat (destruct I as [<-|I]; [intros Q; first [discriminate Q|injection Q as <- <-; reflexivity]|]). contradiction. }
    intros c [<-|[<-|[]]]; (split; [|split; [reflexivity|split; [intros k' u; apply NS|split; [|reflexivity]]]]).
    + split; [cbn; nodup|]. split.
      * intros p. split.
        -- intros I. cbn in I. repeat (destruct I as [<-|I]; [eexists; split; reflexivity|]). contradiction.
        -- intros (k & P & W). destruct p as [|[|[|[|[|p]]]]]; cbn in P; try (cbn; tauto); try (injection P as <-; discriminate W). destruct p; discriminate P.
      * intros t [<-|[<-|[]]].
        -- constructor; [constructor; [|constructor]|constructor; constructor]. intros k k' P Q; cbn in P, Q; injection P as <-; injection Q as <-; intros e f [<-|[]] [<-|[]]; apply inb_ok; reflexivity.
        -- constructor; constructor.
    + intros t i [<-|[<-|[]]] (d & E); (destruct i as [|x [|y [|z i]]]);
        try discriminate E; try (injection E as <- <- E); try (injection E as <- E); cbn; try lia; discriminate E.
    + split; [cbn; nodup|]. split.
      * intros p. split.
        -- intros I. cbn in I. repeat (destruct I as [<-|I]; [eexists; split; reflexivity|]). contradiction.
        -- intros (k & P & W). destruct p as [|[|[|[|[|p]]]]]; cbn in P; try (cbn; tauto); try (injection P as <-; discriminate W). destruct p; discriminate P.
      * intros t [<-|[]]. constructor; constructor.
    + intros t i [<-|[]] (d & E); (destruct i as [|x [|y i]]); try discriminate E; try (injection E as <- E); cbn; try lia; discriminate E.
Qed.

Example C81_in_flight_applied : exists lines,
  scrape_shows ex_ryu Debug (ex_scrape (collected_family ex_cell_visit KGauge MGauge [(0%nat, 2); (1%nat, 0)]%Z)) lines /\
  family_text (str "app_hits"%string) KGauge (fun c part => exists z i, part = [i] /\ int_sample ex_ryu (str "app_hits"%string) (ex_cell_visit c) z i /\
    (0 <= z <= Z.of_nat (length (ex_flight_ts c)))%Z) [0; 1] lines.
Proof.
  destruct C81_in_flight_case as (CON & KS & H).
  exact (C81_in_flight ex_ryu Debug ex_ryu_ok ex_cell_visit ex_cell_names _ _ ex_flight_k _ ex_flight_ts CON KS ltac:(cbn; tauto) eq_refl H _ _ _ (ex_scrape_of _)).
Qed.

(** The gauges of C80, one of them set. *)
Example C81_gauge_case : exists lines,
  scrape_shows ex_ryu Debug (ex_scrape (collected_family ex_cell_visit KGauge MGauge [(0%nat, 2); (1%nat, 7)]%Z)) lines /\
  family_text (str "app_hits"%string) KGauge (fun c part => exists seen i, part = [i] /\
    int_sample ex_ryu (str "app_hits"%string) (ex_cell_visit c) (outcome_of ex_vgauge_ks gauge_at 0%Z seen) i /\
    cut_at (execution_of ex_vgauge_F) ex_vgauge_ks (match c with 0 => [[0; 3]; [1]] | _ => [[2]] end) ex_vgauge_k1 seen) [0; 1] lines.
Proof.
  destruct C80_gauge_case as (CON & KS & _ & _ & _ & T0 & T1 & _).
  refine (C81_gauge ex_ryu Debug ex_ryu_ok ex_cell_visit ex_cell_names _ _ ex_vgauge_k1 _ (fun c => match c with 0 => [[0; 3]; [1]] | _ => [[2]] end) CON KS _ eq_refl _ _ _ _ _ (ex_scrape_of _)).
  - cbn. tauto.
  - intros c v [H|[H|[]]]; injection H as <- <-; lia.
  - intros c [<-|[<-|[]]]; [exact T0|exact T1].
Qed.

Example C81_float_case : exists lines,
  scrape_shows ex_ryu Debug (ex_scrape (collected_family ex_cell_visit KFloatGauge MFloatGauge [(1%nat, f_of_Z 2)])) lines /\
  family_text (str "app_hits"%string) KFloatGauge (fun c part => exists seen i, part = [i] /\
    float_sample ex_ryu (str "app_hits"%string) (ex_cell_visit c) (outcome_of ex_vfloat_ks float_at 0%N seen) i /\
    cut_at (execution_of ex_vfloat_F) ex_vfloat_ks [[0; 1]] ex_vfloat_k seen) [1] lines.
Proof.
  destruct C80_float_case as (CON & KS & _ & TS & _).
  refine (C81_float ex_ryu Debug ex_ryu_ok ex_cell_visit ex_cell_names _ _ ex_vfloat_k _ (fun _ => [[0; 1]]) CON KS _ eq_refl _ _ _ _ _ (ex_scrape_of _)).
  - cbn. tauto.
  - intros c v [H|[]]. injection H as <- <-. vm_compute. reflexivity.
  - intros c [<-|[]]. exact TS.
Qed.

(** The histograms of C80, with the bound 1: the first scrape, and one in which the first
    histogram is sampled again. *)
Example C81_histogram_case : exists lines0 lines,
  scrape_shows ex_ryu Debug (ex_scrape (collected_family ex_cell_visit KHistogram (read_histogram [f_one]) [(0%nat, Some ([0], 0, 0))]%N)) lines0 /\
  scrape_shows ex_ryu Debug (ex_scrape (collected_family ex_cell_visit KHistogram (read_histogram [f_one]) [(0%nat, Some ([1], 0, f_of_Z 1)); (1%nat, Some ([0], 1, f_of_Z 2))]%N)) lines /\
  series_grow [str "app_hits_sum"%string] lines0 lines.
Proof.
  destruct C80_histogram_case as (CON & KS & LOCK & _ & (k & k' & P & Q & B) & _).
  refine (C81_histogram_rates ex_ryu Debug ex_ryu_ok ex_cell_visit ex_cell_names 1 _ ex_hvec_ks _ _ [f_one] CON KS LOCK (fun c => eq_refl) eq_refl eq_refl _ _ _ _ _ _ (ex_scrape_of _) (ex_scrape_of _)).
  - intros h r [H|[H|[]]]; injection H as <- <-; [exists 4|exists 3]; eexists; repeat split.
  - intros h r0 [H|[]]. injection H as <- <-. eexists _, 2, 4, k, k'. split; [now left|]. split; [exact P|]. split; [exact Q|].
    cbn in P, Q. injection P as <-. injection Q as <-. repeat split. exact B.
Qed.
Example C81_histogram_text : ex_scrape_text (collected_family ex_cell_visit KHistogram (read_histogram [f_one]) [(0%nat, Some ([1], 0, 4607182418800017408))]%N) = ex_lines
  ["# TYPE up gauge"; "up 1"; ""; "# HELP app_hits Requests."; "# TYPE app_hits histogram";
   "app_hits_bucket{cell=""0"",le=""4607182418800017408""} 1"; "app_hits_bucket{cell=""0"",le=""+Inf""} 1"; "app_hits_sum{cell=""0""} 4607182418800017408"; "app_hits_count{cell=""0""} 1"]%string.
Proof. vm_compute. reflexivity. Qed.
