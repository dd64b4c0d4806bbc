(** Texts of scrapes whose rows were read under the memory model. *)
From Coq Require Import String List NArith ZArith Bool Arith Lia.
From Verif Require Import Base BaseFacts Writer NameModel NameSpec FloatModel MetricModel LabelModel EncoderModel TextModel TextSpec
  EncoderSpec TextTheorems TextExact ConcModel ConcSpec ConcScrapeModel ConcScrapeSpec ConcScrapeProofs
  ConcWeakModel ConcWeakSpec ConcWeakTheorems ConcMomentSpec ConcWeakMomentSpec ConcWeakVecModel ConcWeakVecSpec ConcWeakVec ConcWeakHistVec.
Import ListNotations.

Section Texts.
  Variable ryu : f64 -> bytes.
  Variable bd : build.
  Hypothesis RYU : float_text_ok ryu.
  Variable visit : nat -> labels.
  Hypothesis names : forall c, labels_valid (visit c).

  Theorem weak_counter_text : forall E ks k rows, consistent E -> calls_of (vec_does counter_does) E ks -> In k ks -> k_res k = VRows rows ->
    (forall c, In c (map fst rows) -> x_init E c = 0%N /\ (all_added_at c ks < 2 ^ 63)%N) ->
    forall nss base sc, scrape_of nss base (collected_family visit KCounter MCounter rows) sc ->
    exists lines, scrape_shows ryu bd sc lines /\
      family_text (full_name nss base []) KCounter
        (fun c part => exists z i, part = [i] /\ int_sample ryu (full_name nss base []) (visit c) z i /\
           ((forall k', In k' ks -> changes_at increments c (k_op k') = true -> before E k' k) -> z = Z.of_N (all_added_at c ks)) /\
           (forall qs, NoDup qs -> (forall q, In q qs -> exists k', nth_error ks q = Some k' /\ before E k' k) -> (Z.of_N (added_at c ks qs) <= z)%Z) /\
           (forall qs, NoDup qs -> (forall q, In q qs -> exists k', nth_error ks q = Some k' /\ before E k k') ->
              (z + Z.of_N (added_at c ks qs) <= Z.of_N (all_added_at c ks))%Z)) (map fst rows) lines.
  Proof.
    intros E ks k rows CON KS K R LT nss base sc SC.
    assert (ROW : forall c v, In (c, v) rows -> has_row k c v) by (intros c v J; exists rows; now split).
    assert (FST : forall c v, In (c, v) rows -> In c (map fst rows)) by (intros c v J; apply in_map_iff; now exists (c, v)).
    assert (RG : forall c v, In (c, v) rows -> metric_in_range (MCounter v)).
    { intros c v J. destruct (LT c (FST c v J)) as [I0 L]. destruct (counter_row E ks k c v CON KS K (ROW c v J)) as [_ X]; [rewrite I0; reflexivity|].
      destruct X as [_ X]; [rewrite I0; lia|]. specialize (X [] (NoDup_nil _) ltac:(intros q [])). rewrite I0 in X. cbn in X |- *. lia. }
    exists (block ryu visit KCounter MCounter nss base rows). split.
    - apply collected_lines; [exact RYU| |exact SC]. intros c v J. split; [apply names|exact (RG c v J)].
    - apply block_text; [|exact RG]. intros c v part J (x & -> & ML). exists (Z.of_N v), x.
      split; [reflexivity|]. split; [exact ML|]. destruct (LT c (FST c v J)) as [I0 L].
      destruct (counter_row E ks k c v CON KS K (ROW c v J)) as [EX X]; [rewrite I0; reflexivity|].
      destruct X as [LO HI]; [rewrite I0; lia|]. rewrite I0 in EX, LO, HI. split; [|split].
      + intros ALL. rewrite (EX ALL), N.mod_small by lia. lia.
      + intros qs ND Q. specialize (LO qs ND Q). lia.
      + intros qs ND Q. specialize (HI qs ND Q). lia.
  Qed.

  Theorem weak_counter_rates : forall E ks k k' rows0 rows, consistent E -> calls_of (vec_does counter_does) E ks ->
    In k ks -> In k' ks -> k_res k = VRows rows0 -> k_res k' = VRows rows -> before E k k' ->
    (forall c, In c (map fst rows) -> x_init E c = 0%N /\ (all_added_at c ks < 2 ^ 63)%N) -> incl (map fst rows0) (map fst rows) ->
    forall nss base sc0 sc, scrape_of nss base (collected_family visit KCounter MCounter rows0) sc0 ->
    scrape_of nss base (collected_family visit KCounter MCounter rows) sc ->
    exists lines0 lines, scrape_shows ryu bd sc0 lines0 /\ scrape_shows ryu bd sc lines /\ series_grow [] lines0 lines.
  Proof.
    intros E ks k k' rows0 rows CON KS K K' R R' B LT IN nss base sc0 sc SC0 SC.
    assert (FST : forall c v, In (c, v) rows -> In c (map fst rows)) by (intros c v J; apply in_map_iff; now exists (c, v)).
    assert (RG : forall c v, In (c, v) rows -> (v < 2 ^ 63)%N).
    { intros c v J. destruct (LT c (FST c v J)) as [I0 L]. destruct (counter_row E ks k' c v CON KS K' ltac:(exists rows; now split)) as [_ X]; [rewrite I0; reflexivity|].
      destruct X as [_ X]; [rewrite I0; lia|]. specialize (X [] (NoDup_nil _) ltac:(intros q [])). rewrite I0 in X. cbn in X. lia. }
    assert (MORE : forall c r0, In (c, r0) rows0 -> exists r, In (c, r) rows /\ (r0 <= r)%N).
    { intros c r0 J. assert (IC : In c (map fst rows)) by (apply IN, in_map_iff; now exists (c, r0)).
      destruct (LT c IC) as [I0 L]. apply in_map_iff in IC as ([c' r] & EQ & J'). cbn in EQ. subst c'. exists r. split; [exact J'|].
      apply (counter_rows_grow E ks k k' c r0 r CON KS K K'); [exists rows0; now split|exists rows; now split|exact B|]. rewrite I0. lia. }
    exists (block ryu visit KCounter MCounter nss base rows0), (block ryu visit KCounter MCounter nss base rows). split; [|split].
    - apply collected_lines; [exact RYU| |exact SC0]. intros c r J. split; [apply names|]. destruct (MORE c r J) as (r' & J' & LE). specialize (RG c r' J'). cbn. lia.
    - apply collected_lines; [exact RYU| |exact SC]. intros c r J. split; [apply names|]. exact (RG c r J).
    - now apply counters_grow.
  Qed.

  (** Gauges of things in flight: [ts c] are the threads of cell [c]. *)
  Theorem weak_flight_text : forall E ks k rows (ts : nat -> list (list nat)), consistent E -> calls_of (vec_does igauge_does) E ks -> In k ks -> k_res k = VRows rows ->
    (forall c, In c (map fst rows) -> threads_of E ks (changes_at igauge_writes c) (ts c) /\ x_init E c = 0%Z /\
       (forall k' u, In k' ks -> k_op k' = VCall c u -> is_set u = false) /\
       (forall t i, In t (ts c) -> initial i t -> (0 <= sum_over (fun op => gauge_delta (on_metric IRead op)) (ops_of_calls ks i) <= 1)%Z) /\
       (Z.of_nat (length (ts c)) < 2 ^ 63)%Z) ->
    forall nss base sc, scrape_of nss base (collected_family visit KGauge MGauge rows) sc ->
    exists lines, scrape_shows ryu bd sc lines /\
      family_text (full_name nss base []) KGauge
        (fun c part => exists z i, part = [i] /\ int_sample ryu (full_name nss base []) (visit c) z i /\ (0 <= z <= Z.of_nat (length (ts c)))%Z) (map fst rows) lines.
  Proof.
    intros E ks k rows ts CON KS K R LT nss base sc SC.
    assert (FST : forall c v, In (c, v) rows -> In c (map fst rows)) by (intros c v J; apply in_map_iff; now exists (c, v)).
    assert (BR : forall c v, In (c, v) rows -> (0 <= v <= Z.of_nat (length (ts c)))%Z).
    { intros c v J. destruct (LT c (FST c v J)) as (TS & I0 & NS & FL & L).
      exact (gauge_row_in_flight E ks k c v (ts c) CON KS TS K ltac:(exists rows; now split) I0 NS FL L). }
    assert (RG : forall c v, In (c, v) rows -> metric_in_range (MGauge v)).
    { intros c v J. specialize (BR c v J). destruct (LT c (FST c v J)) as (_ & _ & _ & _ & L). cbn. lia. }
    exists (block ryu visit KGauge MGauge nss base rows). split.
    - apply collected_lines; [exact RYU| |exact SC]. intros c v J. split; [apply names|exact (RG c v J)].
    - apply block_text; [|exact RG]. intros c v part J (x & -> & ML). exists v, x.
      split; [reflexivity|]. split; [exact ML|]. exact (BR c v J).
  Qed.

  (** Gauges, where [ts c] are the threads of cell [c], in any use. *)
  Theorem weak_gauge_text : forall E ks k rows (ts : nat -> list (list nat)), consistent E -> calls_of (vec_does igauge_does) E ks -> In k ks -> k_res k = VRows rows ->
    (forall c v, In (c, v) rows -> (- 2 ^ 63 <= v < 2 ^ 63)%Z) ->
    (forall c, In c (map fst rows) -> threads_of E ks (changes_at igauge_writes c) (ts c)) ->
    forall nss base sc, scrape_of nss base (collected_family visit KGauge MGauge rows) sc ->
    exists lines, scrape_shows ryu bd sc lines /\
      family_text (full_name nss base []) KGauge
        (fun c part => exists seen i, part = [i] /\ int_sample ryu (full_name nss base []) (visit c) (outcome_of ks gauge_at (x_init E c) seen) i /\
           cut_at E ks (ts c) k seen) (map fst rows) lines.
  Proof.
    intros E ks k rows ts CON KS K R RG LT nss base sc SC.
    exists (block ryu visit KGauge MGauge nss base rows). split.
    - apply collected_lines; [exact RYU| |exact SC]. intros c v J. split; [apply names|exact (RG c v J)].
    - apply block_text; [|exact RG]. intros c v part J (x & -> & ML).
      destruct (gauge_row E ks k c v (ts c) CON KS (LT c ltac:(apply in_map_iff; now exists (c, v))) K ltac:(exists rows; now split)) as (seen & -> & CUT).
      exists seen, x. split; [reflexivity|]. split; [exact ML|exact CUT].
  Qed.

  Theorem weak_float_text : forall E ks k rows (ts : nat -> list (list nat)), consistent E -> calls_of (vec_does float_does) E ks -> In k ks -> k_res k = VRows rows ->
    (forall c v, In (c, v) rows -> (v < 2 ^ 64)%N) ->
    (forall c, In c (map fst rows) -> threads_of E ks (changes_at ConcWeakSpec.float_writes c) (ts c)) ->
    forall nss base sc, scrape_of nss base (collected_family visit KFloatGauge MFloatGauge rows) sc ->
    exists lines, scrape_shows ryu bd sc lines /\
      family_text (full_name nss base []) KFloatGauge
        (fun c part => exists seen i, part = [i] /\ float_sample ryu (full_name nss base []) (visit c) (outcome_of ks float_at (x_init E c) seen) i /\
           cut_at E ks (ts c) k seen) (map fst rows) lines.
  Proof.
    intros E ks k rows ts CON KS K R RG LT nss base sc SC.
    exists (block ryu visit KFloatGauge MFloatGauge nss base rows). split.
    - apply collected_lines; [exact RYU| |exact SC]. intros c v J. split; [apply names|exact (RG c v J)].
    - apply block_text; [|exact RG]. intros c v part J (x & -> & ML).
      destruct (float_row E ks k c v (ts c) CON KS (LT c ltac:(apply in_map_iff; now exists (c, v))) K ltac:(exists rows; now split)) as (seen & -> & CUT).
      exists seen, x. split; [reflexivity|]. split; [exact ML|exact CUT].
  Qed.

  Lemma buckets_total : forall n ops, (fold_right N.add 0 (map (fun b => bucket_count b ops) (seq 0 (S n))) <= N.of_nat (length ops))%N.
  Proof.
    intros n ops. assert (G : forall bs, NoDup bs -> (fold_right N.add 0 (map (fun b => bucket_count b ops) bs) <= N.of_nat (length ops))%N); [|apply G, seq_NoDup].
    intros bs ND. induction ops as [|op ops IH].
    - clear ND. induction bs as [|b bs IHb]; [cbn; lia|]. cbn [map fold_right]. unfold bucket_count at 1. cbn [filter length] in *. lia.
    - assert (X : (fold_right N.add 0 (map (fun b => bucket_count b (op :: ops)) bs) <= 1 + fold_right N.add 0 (map (fun b => bucket_count b ops) bs))%N).
      { clear IH. assert (C : forall b, bucket_count b (op :: ops) = ((if in_bucket b op then 1 else 0) + bucket_count b ops)%N).
        { intros b. unfold bucket_count. cbn [filter]. destruct (in_bucket b op); cbn [length]; lia. }
        destruct op as [b0 x|].
        - assert (Y : forall bs, ~ In b0 bs -> fold_right N.add 0%N (map (fun b => bucket_count b (HObserve b0 x :: ops)) bs) = fold_right N.add 0%N (map (fun b => bucket_count b ops) bs)).
          { induction bs0 as [|b bs0 IHb]; intros NI; [reflexivity|]. cbn [map fold_right]. rewrite IHb by (intros J; apply NI; now right). rewrite C. cbn [in_bucket].
            destruct (Nat.eqb_spec b b0) as [->|]; [destruct NI; now left|reflexivity]. }
          induction bs as [|b bs IHb]; [cbn; lia|]. inversion ND as [|b' bs' NI ND' E1]; subst. cbn [map fold_right]. rewrite C. cbn [in_bucket].
          destruct (Nat.eqb_spec b b0) as [->|]; [rewrite (Y bs NI); lia|]. specialize (IHb ND'). lia.
        - clear ND. induction bs as [|b bs IHb]; [cbn; lia|]. cbn [map fold_right]. rewrite C. cbn [in_bucket]. lia. }
      cbn [length]. lia.
  Qed.

  Lemma sample_range : forall n E ks h ts p k, consistent E -> calls_of (hist_vec_does n) E ks -> vec_locked E ks -> (forall c, x_init E c = 0%N) ->
    (N.of_nat (length ks) < 2 ^ 63)%N -> length ts = n -> nth_error ks p = Some k -> k_op k = (h, HSample) ->
    metric_in_range (read_histogram ts (k_res k)) /\
    exists seen bs inf, k_res k = Some (bs, inf, sum_after 0%N (map snd (ops_of_calls ks seen))) /\ length bs = n /\
      NoDup seen /\ (forall q, In q seen <-> exists k', nth_error ks q = Some k' /\ observes_at h (k_op k') = true /\ before E k' k) /\
      (forall b v, nth_error bs b = Some v -> v = bucket_count b (map snd (ops_of_calls ks seen))) /\ inf = bucket_count n (map snd (ops_of_calls ks seen)).
  Proof.
    intros n E ks h ts p k CON KS LOCK I0 LK LT P S.
    destruct (histogram_vec_samples n E ks CON KS LOCK h) as (order & seen & (ND & MEM & _) & X & _); [intros c; rewrite I0; reflexivity|].
    destruct (X p k P S) as ((bs & inf & R & L & HB & HI) & (unseen & EO) & SB).
    assert (NS : NoDup (seen p)) by (rewrite EO in ND; now apply NoDup_app_both in ND).
    assert (LEN : length (ops_of_calls ks (seen p)) <= length ks).
    { transitivity (length (seen p)).
      - clear. unfold ops_of_calls. induction (seen p) as [|q l IH]; [reflexivity|]. cbn [flat_map]. rewrite app_length. destruct (nth_error ks q); cbn in *; lia.
      - rewrite <- (seq_length (length ks) 0). apply NoDup_incl_length; [exact NS|]. intros q I. apply SB in I as (k' & Q & _).
        apply in_seq. assert (q < length ks) by (apply nth_error_Some; congruence). lia. }
    set (ops := map snd (ops_of_calls ks (seen p))) in *.
    assert (LO : length ops <= length ks) by (unfold ops; now rewrite map_length).
    assert (SMALL : forall b, (bucket_count b ops < 2 ^ 64)%N).
    { intros b. unfold bucket_count. assert (length (filter (in_bucket b) ops) <= length ops) by (clear; induction ops as [|o l IH]; cbn; [lia|]; destruct (in_bucket b o); cbn; lia). lia. }
    assert (HB' : forall b v, nth_error bs b = Some v -> v = bucket_count b ops).
    { intros b v B. rewrite (HB b v B), I0. cbn [N.add]. apply N.mod_small, SMALL. }
    assert (HI' : inf = bucket_count n ops) by (rewrite HI, I0; cbn [N.add]; apply N.mod_small, SMALL).
    split.
    - rewrite R. cbn [read_histogram metric_in_range]. split; [congruence|]. unfold first_buckets. rewrite firstn_all.
      pose proof (buckets_total n ops) as T. rewrite seq_S, map_app, fold_right_app in T. cbn [map fold_right plus] in T. rewrite <- HI' in T.
      assert (EB : bs = map (fun b => bucket_count b ops) (seq 0 n)).
      { clear -HB' L. revert n L HB'. induction bs as [|v bs IH] using rev_ind; intros n L HB'; [cbn in L; subst; reflexivity|].
        rewrite app_length in L. cbn in L. rewrite Nat.add_1_r in L. subst n. rewrite seq_S, map_app. cbn [map plus]. f_equal.
        - apply IH; [reflexivity|]. intros b w W. apply HB'. rewrite nth_error_app1; [exact W|]. apply nth_error_Some. congruence.
        - f_equal. apply HB'. rewrite nth_error_app2, Nat.sub_diag by lia. reflexivity. }
      assert (FA : forall l z, fold_right N.add z l = (fold_right N.add 0 l + z)%N) by (induction l as [|y l IH]; intros z; cbn; [lia|rewrite IH; lia]).
      rewrite FA in T. rewrite <- EB in T. change (fold_right N.add 0%N bs + (inf + 0) <= N.of_nat (length ops))%N in T.
      lia.
    - exists (seen p), bs, inf. rewrite I0 in R. split; [exact R|]. split; [exact L|]. split; [exact NS|]. split; [exact SB|]. split; [exact HB'|exact HI'].
  Qed.

  Theorem weak_histogram_text : forall n E ks rows ts, consistent E -> calls_of (hist_vec_does n) E ks -> vec_locked E ks -> (forall c, x_init E c = 0%N) ->
    (N.of_nat (length ks) < 2 ^ 63)%N -> length ts = n -> sampled ks rows ->
    forall nss base sc, scrape_of nss base (collected_family visit KHistogram (read_histogram ts) rows) sc ->
    exists lines, scrape_shows ryu bd sc lines /\
      family_text (full_name nss base []) KHistogram
        (fun h part => exists k seen bs, In k ks /\ k_op k = (h, HSample) /\ length bs = n /\ NoDup seen /\
           (forall q, In q seen <-> exists k', nth_error ks q = Some k' /\ observes_at h (k_op k') = true /\ before E k' k) /\
           (forall b v, nth_error bs b = Some v -> v = bucket_count b (map snd (ops_of_calls ks seen))) /\
           histogram_lines ryu nss base (visit h) ts bs (bucket_count n (map snd (ops_of_calls ks seen))) (sum_after 0%N (map snd (ops_of_calls ks seen))) part)
        (map fst rows) lines.
  Proof.
    intros n E ks rows ts CON KS LOCK I0 LK LT SM nss base sc SC.
    assert (RG : forall h r, In (h, r) rows -> metric_in_range (read_histogram ts r)).
    { intros h r J. destruct (SM h r J) as (p & k & P & S & <-). eapply sample_range; eauto. }
    exists (block ryu visit KHistogram (read_histogram ts) nss base rows). split.
    - apply collected_lines; [exact RYU| |exact SC]. intros h r J. split; [apply names|exact (RG h r J)].
    - apply block_text; [|exact RG]. intros h r part J ML. destruct (SM h r J) as (p & k & P & S & <-).
      destruct (sample_range n E ks h ts p k CON KS LOCK I0 LK LT P S) as (_ & seen & bs & inf & R & L & NS & SB & HB & HI).
      exists k, seen, bs. rewrite R in ML. cbn [read_histogram metric_lines] in ML. rewrite HI in ML.
      split; [eapply nth_error_In; eauto|]. split; [exact S|]. split; [exact L|]. split; [exact NS|]. split; [exact SB|]. split; [exact HB|]. exact ML.
  Qed.

  Theorem weak_histogram_rates : forall n E ks rows0 rows ts, consistent E -> calls_of (hist_vec_does n) E ks -> vec_locked E ks -> (forall c, x_init E c = 0%N) ->
    (N.of_nat (length ks) < 2 ^ 63)%N -> length ts = n -> sampled ks rows ->
    (forall h r0, In (h, r0) rows0 -> exists r p q k k', In (h, r) rows /\ nth_error ks p = Some k /\ nth_error ks q = Some k' /\
       k_op k = (h, HSample) /\ k_op k' = (h, HSample) /\ k_res k = r0 /\ k_res k' = r /\ before E k k') ->
    forall nss base sc0 sc, scrape_of nss base (collected_family visit KHistogram (read_histogram ts) rows0) sc0 ->
    scrape_of nss base (collected_family visit KHistogram (read_histogram ts) rows) sc ->
    exists lines0 lines, scrape_shows ryu bd sc0 lines0 /\ scrape_shows ryu bd sc lines /\ series_grow [full_name nss base [str "sum"]] lines0 lines.
  Proof.
    intros n E ks rows0 rows ts CON KS LOCK I0 LK LT SM H nss base sc0 sc SC0 SC.
    exists (block ryu visit KHistogram (read_histogram ts) nss base rows0), (block ryu visit KHistogram (read_histogram ts) nss base rows). split; [|split].
    - apply collected_lines; [exact RYU| |exact SC0]. intros h r J. split; [apply names|]. destruct (H h r J) as (r' & p & q & k & k' & _ & P & _ & S & _ & <- & _). eapply sample_range; eauto.
    - apply collected_lines; [exact RYU| |exact SC]. intros h r J. split; [apply names|]. destruct (SM h r J) as (p & k & P & S & <-). eapply sample_range; eauto.
    - apply histograms_grow. intros h r0 J. destruct (H h r0 J) as (r & p & q & k & k' & J' & P & Q & S & S' & <- & <- & B).
      destruct (sample_range n E ks h ts p k CON KS LOCK I0 LK LT P S) as (_ & seen & bs & inf & R & L & _).
      destruct (sample_range n E ks h ts q k' CON KS LOCK I0 LK LT Q S') as (_ & seen' & bs' & inf' & R' & L' & _).
      destruct (histogram_vec_grow n E ks h p q k k' _ _ _ _ _ _ CON KS LOCK ltac:(intros c; rewrite I0; lia) P Q S S' B R R') as (GI & GB).
      eexists _, _, _, _, _, _. split; [exact R|]. split; [rewrite R' in J'; exact J'|]. split; [|exact GI].
      clear -L L' GB. assert (LL : length bs = length bs') by congruence. clear L L'. revert bs' LL GB. induction bs as [|x bs IH]; intros [|y bs'] LL GB; try discriminate; constructor.
      + exact (GB 0%nat x y eq_refl eq_refl).
      + apply IH; [cbn in LL; lia|]. intros b v w V W. exact (GB (S b) v w V W).
  Qed.
End Texts.
