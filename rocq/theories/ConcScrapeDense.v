(** Scrapes of a dense vec that threads use. *)
From Coq Require Import String List NArith ZArith Bool Arith Lia Sorted.
From Verif Require Import Base BaseFacts Writer NameModel NameSpec FloatModel MetricModel LabelModel LabelSpec EncoderModel TextModel TextSpec
  EncoderSpec TextTheorems TextExact ConcModel ConcSpec ConcTheorems ConcVecSpec ConcVecTheorems ConcCallModel ConcCallSpec ConcCallTheorems ConcScrapeModel ConcScrapeSpec ConcScrapeProofs
  ConcDenseModel ConcDenseSpec ConcDenseCallModel ConcDenseCallSpec ConcDenseCallProofs ConcDenseCallTheorems ConcDenseOrder ConcWithinDense.
Import ListNotations.

Section Dense.
  Variable L : lgset.
  Variable wt : lg_state L -> lg_group L -> Prop.
  Variable visit : lg_group L -> labels.
  Variable ryu : f64 -> bytes.
  Variable bd : build.
  Hypothesis RYU : float_text_ok ryu.
  Variable w : dense_setup L.
  Hypothesis geq : forall a b : lg_group L, {a = b} + {a <> b}.
  Hypothesis ok : dense_ok_setup L wt w.
  Hypothesis names : forall g, labels_valid (visit g).

  Theorem dense_counter_text : forall P : dense_program L counter_op N, dense_shaped wt w P ->
    forall s0 s1 i tr rest n, dense_underway w counter_code P s0 i = None ->
    dense_finished w counter_code P (s0 ++ s1) i = dense_finished w counter_code P s0 i ++ (ECollect, tr) :: rest ->
    (forall j, (n <= j)%nat -> dense_finished w counter_code P (s0 ++ s1) j = [] /\ dense_underway w counter_code P (s0 ++ s1) j = None) ->
    forall l, dense_result_of ECollect tr = DCollected l ->
    (forall g, In g (map fst l) -> (dense_sum_begun w counter_code P geq (fun u _ => counter_delta u) counter_delta g n (s0 ++ s1) < 2 ^ 63)%Z) ->
    forall nss base sc, scrape_of nss base (collected_family visit KCounter MCounter l) sc ->
    exists lines, scrape_shows ryu bd sc lines /\
      family_text (full_name nss base []) KCounter
        (fun g part => exists z i, part = [i] /\ int_sample ryu (full_name nss base []) (visit g) z i /\
           (dense_sum_finished w counter_code P geq (fun u _ => counter_delta u) g n s0 <= z <=
            dense_sum_begun w counter_code P geq (fun u _ => counter_delta u) counter_delta g n (s0 ++ s1))%Z) (map fst l) lines /\
      (exists ks, Forall2 (dense_id wt w) (map fst l) ks /\ StronglySorted lt ks) /\
      (forall j g u t r, In (EUpdate g u, t) (dense_finished w counter_code P s0 j) -> dense_result_of (EUpdate g u) t = DReturned r -> In g (map fst l)) /\
      (forall g, In g (map fst l) -> exists j u, dense_begun w counter_code P (s0 ++ s1) j (EUpdate g u)).
  Proof.
    intros P shaped s0 s1 i tr rest n ID LA BE l RC LT nss base sc SC.
    assert (FST : forall g r, In (g, r) l -> In g (map fst l)) by (intros g r J; apply in_map_iff; now exists (g, r)).
    assert (IN : In (ECollect, tr) (dense_finished w counter_code P (s0 ++ s1) i)) by (rewrite LA; apply in_or_app; right; now left).
    assert (BR : forall g r, In (g, r) l ->
      (dense_sum_finished w counter_code P geq (fun u _ => counter_delta u) g n s0 <= Z.of_N r <=
            dense_sum_begun w counter_code P geq (fun u _ => counter_delta u) counter_delta g n (s0 ++ s1))%Z).
    { intros g r J. refine (dense_counter_brackets wt w geq ok P shaped s0 s1 i tr rest n ID LA BE l g r RC J _). specialize (LT g (FST g r J)). lia. }
    assert (RG : forall g r, In (g, r) l -> metric_in_range (MCounter r)).
    { intros g r J. specialize (BR g r J). specialize (LT g (FST g r J)). cbn. lia. }
    destruct (ConcDenseCallProofs.collections wt w counter_code _ _ _ P ok shaped (counter_good 0) (s0 ++ s1) i tr IN) as (l' & ks & E & KS & SS & BG).
    rewrite RC in E. injection E as <-.
    exists (block ryu visit KCounter MCounter nss base l). split; [|split; [|split; [|split]]].
    - apply collected_lines; [exact RYU| |exact SC]. intros g r J. split; [apply names|exact (RG g r J)].
    - apply block_text; [|exact RG]. intros g r part J (x & -> & ML). exists (Z.of_N r), x.
      split; [reflexivity|]. split; [exact ML|]. exact (BR g r J).
    - exists ks. split; [|exact SS]. clear - KS. induction KS; constructor; auto.
    - intros j g u t r I R.
      destruct (shown wt w counter_code _ _ _ P ok shaped (counter_good 0) s0 s1 i tr rest ID LA j g u t r I R) as (l' & r' & E & J).
      rewrite RC in E. injection E as <-. apply in_map_iff. now exists (g, r').
    - intros g J. apply in_map_iff in J as ([g' r] & <- & J). exact (BG g' r J).
  Qed.

  Theorem dense_counter_rates : forall P : dense_program L counter_op N, dense_shaped wt w P ->
    forall s0 s1 i tr rest n, dense_underway w counter_code P s0 i = None ->
    dense_finished w counter_code P (s0 ++ s1) i = dense_finished w counter_code P s0 i ++ (ECollect, tr) :: rest ->
    (forall j, (n <= j)%nat -> dense_finished w counter_code P (s0 ++ s1) j = [] /\ dense_underway w counter_code P (s0 ++ s1) j = None) ->
    forall i0 tr0 l0 l, In (ECollect, tr0) (dense_finished w counter_code P s0 i0) -> dense_result_of ECollect tr0 = DCollected l0 ->
    dense_result_of ECollect tr = DCollected l ->
    (forall g, In g (map fst l) -> (dense_sum_begun w counter_code P geq (fun u _ => counter_delta u) counter_delta g n (s0 ++ s1) < 2 ^ 63)%Z) ->
    forall nss base sc0 sc, scrape_of nss base (collected_family visit KCounter MCounter l0) sc0 ->
    scrape_of nss base (collected_family visit KCounter MCounter l) sc ->
    exists lines0 lines, scrape_shows ryu bd sc0 lines0 /\ scrape_shows ryu bd sc lines /\ series_grow [] lines0 lines.
  Proof.
    intros P shaped s0 s1 i tr rest n ID LA BE i0 tr0 l0 l I0 RC0 RC LT nss base sc0 sc SC0 SC.
    assert (FST : forall g r, In (g, r) l -> In g (map fst l)) by (intros g r J; apply in_map_iff; now exists (g, r)).
    assert (STILL : forall g r, In (g, r) l0 -> In g (map fst l)).
    { intros g r J. destruct (dense_still wt w counter_code _ _ _ P ok shaped (counter_good 0) s0 s1 i tr rest ID LA i0 tr0 I0 l0 g r RC0 J) as (l' & r' & E & K).
      rewrite RC in E. injection E as <-. exact (FST g r' K). }
    assert (MORE : forall g r0, In (g, r0) l0 -> exists r, In (g, r) l /\ (r0 <= r)%N).
    { intros g r0 J.
      destruct (dense_counter_later wt w geq ok P shaped s0 s1 i tr rest n ID LA BE i0 tr0 l0 g r0 I0 RC0 J) as (l' & E & (r & JR) & LE); [specialize (LT g (STILL g r0 J)); lia|].
      rewrite RC in E. injection E as <-. exists r. split; [exact JR|exact (LE r JR)]. }
    assert (RG : forall g r, In (g, r) l -> (r < 2 ^ 63)%N).
    { intros g r J. assert (LG := LT g (FST g r J)).
      pose proof (dense_counter_brackets wt w geq ok P shaped s0 s1 i tr rest n ID LA BE l g r RC J ltac:(lia)) as B. lia. }
    exists (block ryu visit KCounter MCounter nss base l0), (block ryu visit KCounter MCounter nss base l).
    split; [|split].
    - apply collected_lines; [exact RYU| |exact SC0]. intros g r J. split; [apply names|]. destruct (MORE g r J) as (r' & J' & LE). specialize (RG g r' J'). cbn. lia.
    - apply collected_lines; [exact RYU| |exact SC]. intros g r J. split; [apply names|]. exact (RG g r J).
    - now apply counters_grow.
  Qed.

  Theorem dense_histogram_text : forall b (P : dense_program L hist_op hist_res), dense_shaped wt w P ->
    forall s0 s1 i tr rest n, dense_underway w (hist_code b) P s0 i = None ->
    dense_finished w (hist_code b) P (s0 ++ s1) i = dense_finished w (hist_code b) P s0 i ++ (ECollect, tr) :: rest ->
    (forall j, (n <= j)%nat -> dense_finished w (hist_code b) P (s0 ++ s1) j = [] /\ dense_underway w (hist_code b) P (s0 ++ s1) j = None) ->
    forall l, dense_result_of ECollect tr = DCollected l ->
    (forall g, In g (map fst l) -> (dense_sum_begun w (hist_code b) P geq hist_added hist_most g n (s0 ++ s1) < 2 ^ 63)%Z) ->
    forall ts, length ts = b ->
    forall nss base sc, scrape_of nss base (collected_family visit KHistogram (read_histogram ts) l) sc ->
    exists lines, scrape_shows ryu bd sc lines /\
      family_text (full_name nss base []) KHistogram
        (fun g part => exists bs inf sum, In (g, Some (bs, inf, sum)) l /\ histogram_lines ryu nss base (visit g) ts bs inf sum part /\
           (dense_sum_finished w (hist_code b) P geq hist_added g n s0 <= Z.of_N (first_buckets (length bs) bs + inf) <=
            dense_sum_begun w (hist_code b) P geq hist_added hist_most g n (s0 ++ s1))%Z) (map fst l) lines /\
      (exists ks, Forall2 (dense_id wt w) (map fst l) ks /\ StronglySorted lt ks) /\
      (forall j g u t r, In (EUpdate g u, t) (dense_finished w (hist_code b) P s0 j) -> dense_result_of (EUpdate g u) t = DReturned r -> In g (map fst l)) /\
      (forall g, In g (map fst l) -> exists j u, dense_begun w (hist_code b) P (s0 ++ s1) j (EUpdate g u)).
  Proof.
    intros b P shaped s0 s1 i tr rest n ID LA BE l RC LT ts BS nss base sc SC.
    assert (FST : forall g r, In (g, r) l -> In g (map fst l)) by (intros g r J; apply in_map_iff; now exists (g, r)).
    assert (RG : forall g r, In (g, r) l -> metric_in_range (read_histogram ts r)).
    { intros g r J. specialize (LT g (FST g r J)).
      destruct (dense_hist_within wt w geq ok b P shaped s0 s1 i tr rest n ID LA BE l g r RC J ltac:(lia)) as (bs & inf & sum & -> & LN & LE).
      cbn [read_histogram metric_in_range]. split; [now rewrite LN|lia]. }
    assert (LT' : forall g, In g (map fst l) -> (dense_sum_begun w (hist_code b) P geq hist_added hist_most g n (s0 ++ s1) < 2 ^ 64)%Z) by (intros g J; specialize (LT g J); lia).
    clear LT. rename LT' into LT.
    assert (IN : In (ECollect, tr) (dense_finished w (hist_code b) P (s0 ++ s1) i)) by (rewrite LA; apply in_or_app; right; now left).
    destruct (ConcDenseCallProofs.collections wt w (hist_code b) _ _ _ P ok shaped (hist_good b) (s0 ++ s1) i tr IN) as (l' & ks & E & KS & SS & BG).
    rewrite RC in E. injection E as <-.
    exists (block ryu visit KHistogram (read_histogram ts) nss base l). split; [|split; [|split; [|split]]].
    - apply collected_lines; [exact RYU| |exact SC]. intros g r J. split; [apply names|exact (RG g r J)].
    - apply block_text; [|exact RG]. intros g r part J ML.
      destruct (dense_hist_brackets wt w geq ok b P shaped s0 s1 i tr rest n ID LA BE l g r RC J (LT g (FST g r J))) as ([[bs inf] sum] & -> & B).
      exists bs, inf, sum. split; [exact J|]. split; [exact ML|].
      specialize (RG g _ J). cbn [read_histogram] in RG. rewrite <- (count_total _ _ _ _ RG). exact B.
    - exists ks. split; [|exact SS]. clear - KS. induction KS; constructor; auto.
    - intros j g u t r I R.
      destruct (shown wt w (hist_code b) _ _ _ P ok shaped (hist_good b) s0 s1 i tr rest ID LA j g u t r I R) as (l' & r' & E & J).
      rewrite RC in E. injection E as <-. exact (FST g r' J).
    - intros g J. apply in_map_iff in J as ([g' r] & <- & J). exact (BG g' r J).
  Qed.

  Theorem dense_histogram_rates : forall b (P : dense_program L hist_op hist_res), dense_shaped wt w P ->
    forall s0 s1 i tr rest n, dense_underway w (hist_code b) P s0 i = None ->
    dense_finished w (hist_code b) P (s0 ++ s1) i = dense_finished w (hist_code b) P s0 i ++ (ECollect, tr) :: rest ->
    (forall j, (n <= j)%nat -> dense_finished w (hist_code b) P (s0 ++ s1) j = [] /\ dense_underway w (hist_code b) P (s0 ++ s1) j = None) ->
    forall i0 tr0 l0 l, In (ECollect, tr0) (dense_finished w (hist_code b) P s0 i0) -> dense_result_of ECollect tr0 = DCollected l0 ->
    dense_result_of ECollect tr = DCollected l ->
    (forall g, In g (map fst l) -> (dense_sum_begun w (hist_code b) P geq hist_added hist_most g n (s0 ++ s1) < 2 ^ 63)%Z) ->
    forall ts, length ts = b ->
    forall nss base sc0 sc, scrape_of nss base (collected_family visit KHistogram (read_histogram ts) l0) sc0 ->
    scrape_of nss base (collected_family visit KHistogram (read_histogram ts) l) sc ->
    exists lines0 lines, scrape_shows ryu bd sc0 lines0 /\ scrape_shows ryu bd sc lines /\ series_grow [full_name nss base [str "sum"]] lines0 lines.
  Proof.
    intros b P shaped s0 s1 i tr rest n ID LA BE i0 tr0 l0 l I0 RC0 RC LT ts BS nss base sc0 sc SC0 SC.
    assert (FST : forall g r, In (g, r) l -> In g (map fst l)) by (intros g r J; apply in_map_iff; now exists (g, r)).
    assert (RG : forall g r, In (g, r) l -> metric_in_range (read_histogram ts r)).
    { intros g r J. specialize (LT g (FST g r J)).
      destruct (dense_hist_within wt w geq ok b P shaped s0 s1 i tr rest n ID LA BE l g r RC J ltac:(lia)) as (bs & inf & sum & -> & LN & LE).
      cbn [read_histogram metric_in_range]. split; [now rewrite LN|lia]. }
    assert (LT' : forall g, In g (map fst l) -> (dense_sum_begun w (hist_code b) P geq hist_added hist_most g n (s0 ++ s1) < 2 ^ 64)%Z) by (intros g J; specialize (LT g J); lia).
    clear LT. rename LT' into LT.
    assert (STILL : forall g r, In (g, r) l0 -> In g (map fst l)).
    { intros g r J. destruct (dense_still wt w (hist_code b) _ _ _ P ok shaped (hist_good b) s0 s1 i tr rest ID LA i0 tr0 I0 l0 g r RC0 J) as (l' & r' & E & K).
      rewrite RC in E. injection E as <-. exact (FST g r' K). }
    assert (MORE : forall g r0, In (g, r0) l0 -> exists bs0 inf0 sum0 bs inf sum, r0 = Some (bs0, inf0, sum0) /\ In (g, Some (bs, inf, sum)) l /\
       Forall2 N.le bs0 bs /\ (inf0 <= inf)%N).
    { intros g r0 J.
      destruct (dense_hist_later wt w geq ok b P shaped s0 s1 i tr rest n ID LA BE i0 tr0 l0 g r0 I0 RC0 J (LT g (STILL g r0 J))) as (l' & E & (r & JR) & LE).
      rewrite RC in E. injection E as <-. destruct (LE r JR) as (bs0 & inf0 & sum0 & bs & inf & sum & -> & -> & X & Y).
      exists bs0, inf0, sum0, bs, inf, sum. auto. }
    exists (block ryu visit KHistogram (read_histogram ts) nss base l0), (block ryu visit KHistogram (read_histogram ts) nss base l).
    split; [|split].
    - apply collected_lines; [exact RYU| |exact SC0]. intros g r J. split; [apply names|]. apply (smaller_in_range _ ts l RG g r (MORE g r J)).
    - apply collected_lines; [exact RYU| |exact SC]. intros g r J. split; [apply names|]. exact (RG g r J).
    - now apply histograms_grow.
  Qed.
End Dense.
