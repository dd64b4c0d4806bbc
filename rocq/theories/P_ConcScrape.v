(** Property C75: what is read in the text of scrapes taken while threads use a
    vec.  [w] has the label set and the shards, [P] says what each thread calls
    next; by the end of the schedule [s0] thread [i] has nothing underway, and
    then it collects the vec while the others go on with [s1]. *)
From Coq Require Import String List NArith ZArith Bool Arith Lia Sorted.
From Verif Require Import Base BaseFacts Writer NameModel NameSpec NameProofs FloatModel MetricModel MetricExamples LabelModel LabelSpec EncoderModel TextModel TextSpec TextExamples TextExampleProofs
  EncoderSpec ScrapeSpec ScrapeExamples TextTheorems ConcModel ConcSpec ConcExamples ConcTheorems ConcVecModel ConcVecSpec ConcVecTheorems ConcVecExamples ConcLabelModel ConcLabelSpec ConcLabelExamples
  ConcCallModel ConcCallSpec ConcCallTheorems ConcCallOrder ConcCallExamples P_ConcCall GroupProofs LawProofs
  ConcDenseModel ConcDenseSpec ConcDenseCallModel ConcDenseCallSpec ConcDenseCallProofs ConcDenseCallTheorems ConcDenseOrder ConcDenseCallExamples P_ConcDenseCall P_ConcOrder
  ConcScrapeModel ConcScrapeSpec ConcScrapeProofs ConcScrapeDense ConcScrapeExamples.
Import ListNotations.

(** The text of a scrape has, between what it says of the rest of the group, a TYPE
    line for the vec and then the lines of each metric met by the collection: each
    group once, under its own label values, with the value that was read. *)
Theorem C75_text : forall Sh Op Res Mic V St heck w (m : metric_code Sh Op Res Mic V) spec (st_new : St) aview (P : call_program Op Res V),
setup_ok w -> calls_shaped (su_fields w) P -> good_metric (mc_machine m) (mc_new m) (mc_view m) spec st_new aview ->
forall float_text, float_text_ok float_text -> Forall (fun f => valid_label_name (field_label f)) (su_fields w) ->
forall s i tr l, In (CCollect, tr) (finished_calls w m P s i) -> result_of CCollect tr = Collected l ->
  forall k read, (forall g r, In (g, r) l -> metric_in_range (read r)) ->
  forall nss base sc, scrape_of nss base (collected_family (group_visit heck (su_fields w)) k read l) sc ->
  exists lines, scrape_shows float_text (su_build w) sc lines /\ NoDup (map fst l) /\
    family_text (full_name nss base []) k
      (fun g part => exists ls r, group_shown heck (su_fields w) g ls /\ In (g, r) l /\ metric_lines float_text nss base ls (read r) part) (map fst l) lines.
Proof. exact @scrape_text. Qed.
Print Assumptions C75_text.

(** A counter vec: the value read lies between what had been added to the counter when
    the collection began and what the calls begun by its end may add.  Groups
    updated before are there; no others than those someone has begun to update. *)
Theorem C75_counters : forall heck float_text, float_text_ok float_text -> forall w, setup_ok w ->
(forall k, (su_shard_of w k < su_shards w)%nat) -> Forall (fun f => valid_label_name (field_label f)) (su_fields w) ->
forall P : call_program counter_op N N, calls_shaped (su_fields w) P ->
  forall s0 s1 i tr rest n, call_underway w counter_code P s0 i = None ->
  finished_calls w counter_code P (s0 ++ s1) i = finished_calls w counter_code P s0 i ++ (CCollect, tr) :: rest ->
  (forall j, (n <= j)%nat -> finished_calls w counter_code P (s0 ++ s1) j = [] /\ call_underway w counter_code P (s0 ++ s1) j = None) ->
  forall l, result_of CCollect tr = Collected l -> (forall g, In g (map fst l) -> forall j hd, P j hd <> Some (CDelete g)) ->
  (forall g, In g (map fst l) -> (sum_begun w counter_code P (fun u _ => counter_delta u) Z.of_N counter_delta g n (s0 ++ s1) < 2 ^ 63)%Z) ->
  forall nss base sc, scrape_of nss base (collected_family (group_visit heck (su_fields w)) KCounter MCounter l) sc ->
  exists lines, scrape_shows float_text (su_build w) sc lines /\ NoDup (map fst l) /\
    family_text (full_name nss base []) KCounter
      (fun g part => exists ls z i, group_shown heck (su_fields w) g ls /\ part = [i] /\ int_sample float_text (full_name nss base []) ls z i /\
         (sum_finished w counter_code P (fun u _ => counter_delta u) Z.of_N g n s0 <= z <=
          sum_begun w counter_code P (fun u _ => counter_delta u) Z.of_N counter_delta g n (s0 ++ s1))%Z) (map fst l) lines /\
    (forall g, (forall j hd, P j hd <> Some (CDelete g)) -> forall j u t r, In (CUpdate g u, t) (finished_calls w counter_code P s0 j) -> result_of (CUpdate g u) t = Returned r -> In g (map fst l)) /\
    (forall g, In g (map fst l) -> exists j u, call_begun w counter_code P (s0 ++ s1) j (CUpdate g u)).
Proof. exact counter_text. Qed.
Print Assumptions C75_counters.

(** Of two scrapes one after the other, the second has every series of the first
    with at least its value, so that the difference is never negative. *)
Theorem C75_counter_rates : forall heck float_text, float_text_ok float_text -> forall w, setup_ok w ->
(forall k, (su_shard_of w k < su_shards w)%nat) -> Forall (fun f => valid_label_name (field_label f)) (su_fields w) ->
forall P : call_program counter_op N N, calls_shaped (su_fields w) P ->
  forall s0 s1 i tr rest n, call_underway w counter_code P s0 i = None ->
  finished_calls w counter_code P (s0 ++ s1) i = finished_calls w counter_code P s0 i ++ (CCollect, tr) :: rest ->
  (forall j, (n <= j)%nat -> finished_calls w counter_code P (s0 ++ s1) j = [] /\ call_underway w counter_code P (s0 ++ s1) j = None) ->
  forall i0 tr0 l0 l, In (CCollect, tr0) (finished_calls w counter_code P s0 i0) -> result_of CCollect tr0 = Collected l0 -> result_of CCollect tr = Collected l ->
  (forall g, In g (map fst l0 ++ map fst l) -> forall j hd, P j hd <> Some (CDelete g)) ->
  (forall g, In g (map fst l) -> (sum_begun w counter_code P (fun u _ => counter_delta u) Z.of_N counter_delta g n (s0 ++ s1) < 2 ^ 63)%Z) ->
  forall nss base sc0 sc, scrape_of nss base (collected_family (group_visit heck (su_fields w)) KCounter MCounter l0) sc0 ->
  scrape_of nss base (collected_family (group_visit heck (su_fields w)) KCounter MCounter l) sc ->
  exists lines0 lines, scrape_shows float_text (su_build w) sc0 lines0 /\ scrape_shows float_text (su_build w) sc lines /\ series_grow [] lines0 lines.
Proof. exact counter_rates. Qed.
Print Assumptions C75_counter_rates.

(** A histogram vec: the lines of each group are those of one histogram, whose count lies
    between the observations finished when the collection began and those begun by
    its end. *)
Theorem C75_histograms : forall heck float_text, float_text_ok float_text -> forall w, setup_ok w ->
(forall k, (su_shard_of w k < su_shards w)%nat) -> Forall (fun f => valid_label_name (field_label f)) (su_fields w) ->
forall b (P : hist_calls), calls_shaped (su_fields w) P ->
  forall s0 s1 i tr rest n, call_underway w (hist_code b) P s0 i = None ->
  finished_calls w (hist_code b) P (s0 ++ s1) i = finished_calls w (hist_code b) P s0 i ++ (CCollect, tr) :: rest ->
  (forall j, (n <= j)%nat -> finished_calls w (hist_code b) P (s0 ++ s1) j = [] /\ call_underway w (hist_code b) P (s0 ++ s1) j = None) ->
  forall l, result_of CCollect tr = Collected l -> (forall g, In g (map fst l) -> forall j hd, P j hd <> Some (CDelete g)) ->
  (forall g, In g (map fst l) -> (sum_begun w (hist_code b) P hist_added hist_count hist_most g n (s0 ++ s1) < 2 ^ 63)%Z) ->
  forall ts, length ts = b ->
  forall nss base sc, scrape_of nss base (collected_family (group_visit heck (su_fields w)) KHistogram (read_histogram ts) l) sc ->
  exists lines, scrape_shows float_text (su_build w) sc lines /\ NoDup (map fst l) /\
    family_text (full_name nss base []) KHistogram
      (fun g part => exists ls bs inf sum, group_shown heck (su_fields w) g ls /\ In (g, Some (bs, inf, sum)) l /\
         histogram_lines float_text nss base ls ts bs inf sum part /\
         (sum_finished w (hist_code b) P hist_added hist_count g n s0 <= Z.of_N (first_buckets (length bs) bs + inf) <=
          sum_begun w (hist_code b) P hist_added hist_count hist_most g n (s0 ++ s1))%Z) (map fst l) lines /\
    (forall g, (forall j hd, P j hd <> Some (CDelete g)) -> forall j u t r, In (CUpdate g u, t) (finished_calls w (hist_code b) P s0 j) ->
       result_of (CUpdate g u) t = Returned r -> In g (map fst l)) /\
    (forall g, In g (map fst l) -> exists j u, call_begun w (hist_code b) P (s0 ++ s1) j (CUpdate g u)).
Proof. exact histogram_text. Qed.
Print Assumptions C75_histograms.

(** The same for every bucket and the count of a histogram; the sum may shrink, since
    observations may be negative. *)
Theorem C75_histogram_rates : forall heck float_text, float_text_ok float_text -> forall w, setup_ok w ->
(forall k, (su_shard_of w k < su_shards w)%nat) -> Forall (fun f => valid_label_name (field_label f)) (su_fields w) ->
forall b (P : hist_calls), calls_shaped (su_fields w) P ->
  forall s0 s1 i tr rest n, call_underway w (hist_code b) P s0 i = None ->
  finished_calls w (hist_code b) P (s0 ++ s1) i = finished_calls w (hist_code b) P s0 i ++ (CCollect, tr) :: rest ->
  (forall j, (n <= j)%nat -> finished_calls w (hist_code b) P (s0 ++ s1) j = [] /\ call_underway w (hist_code b) P (s0 ++ s1) j = None) ->
  forall i0 tr0 l0 l, In (CCollect, tr0) (finished_calls w (hist_code b) P s0 i0) -> result_of CCollect tr0 = Collected l0 -> result_of CCollect tr = Collected l ->
  (forall g, In g (map fst l0 ++ map fst l) -> forall j hd, P j hd <> Some (CDelete g)) ->
  (forall g, In g (map fst l) -> (sum_begun w (hist_code b) P hist_added hist_count hist_most g n (s0 ++ s1) < 2 ^ 63)%Z) ->
  forall ts, length ts = b ->
  forall nss base sc0 sc, scrape_of nss base (collected_family (group_visit heck (su_fields w)) KHistogram (read_histogram ts) l0) sc0 ->
  scrape_of nss base (collected_family (group_visit heck (su_fields w)) KHistogram (read_histogram ts) l) sc ->
  exists lines0 lines, scrape_shows float_text (su_build w) sc0 lines0 /\ scrape_shows float_text (su_build w) sc lines /\
    series_grow [full_name nss base [str "sum"]] lines0 lines.
Proof. exact histogram_rates. Qed.
Print Assumptions C75_histogram_rates.

(** Two scrapes of the counters of C74, 11 and then 15 for bob. *)
Example C75_case : let first := [(ex_bob, 11)]%N in let second := [(ex_bob, 15)]%N in
  nth 0 (ex_order_results ex_first 1) Failed = Collected first /\ nth 1 (ex_order_results (ex_first ++ ex_second) 2) Failed = Collected second /\
  ex_scrape_text (ex_counter_family first) = ex_lines
    ["# TYPE up gauge"; "up 1"; ""; "# HELP app_hits Requests."; "# TYPE app_hits counter"; "app_hits{path=""/b"",verb=""put"",user=""bob"",peer=""ann""} 11"]%string /\
  ex_scrape_text (ex_counter_family second) = ex_lines
    ["# TYPE up gauge"; "up 1"; ""; "# HELP app_hits Requests."; "# TYPE app_hits counter"; "app_hits{path=""/b"",verb=""put"",user=""bob"",peer=""ann""} 15"]%string.
Proof. vm_compute. repeat split. Qed.

Example C75_hypotheses : float_text_ok ex_ryu /\ Forall (fun f => valid_label_name (field_label f)) (su_fields ex_setup) /\
  (forall F, scrape_of [str "app"%string] (str "hits"%string) F (ex_scrape F)).
Proof.
  split; [exact ex_ryu_ok|]. split; [|exact ex_scrape_of]. repeat constructor; now apply valid_label_nameb_spec.
Qed.

(** So the theorem applies. *)
Example C75_applied : exists lines0 lines, scrape_shows ex_ryu Debug (ex_scrape (ex_counter_family [(ex_bob, 11%N)])) lines0 /\
  scrape_shows ex_ryu Debug (ex_scrape (ex_counter_family [(ex_bob, 15%N)])) lines /\ series_grow [] lines0 lines.
Proof.
  destruct C64_hypotheses as (OK & _ & _ & RG & _). destruct C74_hypotheses as (SH & _ & KP & _). destruct C75_hypotheses as (RY & NM & SC).
  set (tr := snd (nth 1 (finished_calls ex_setup counter_code ex_order_program (ex_first ++ ex_second) 2) (CCollect, []))).
  set (tr0 := snd (nth 0 (finished_calls ex_setup counter_code ex_order_program ex_first 1) (CCollect, []))).
  assert (E : finished_calls ex_setup counter_code ex_order_program (ex_first ++ ex_second) 2 =
    finished_calls ex_setup counter_code ex_order_program ex_first 2 ++ (CCollect, tr) :: []) by (vm_compute; reflexivity).
  assert (I0 : finished_calls ex_setup counter_code ex_order_program ex_first 1 = [(CCollect, tr0)]) by (vm_compute; reflexivity).
  assert (R0 : result_of CCollect tr0 = Collected [(ex_bob, 11%N)]) by (vm_compute; reflexivity).
  assert (R1 : result_of CCollect tr = Collected [(ex_bob, 15%N)]) by (vm_compute; reflexivity).
  assert (U : call_underway ex_setup counter_code ex_order_program ex_first 2 = None) by (vm_compute; reflexivity).
  assert (B : (sum_begun ex_setup counter_code ex_order_program (fun u _ => counter_delta u) Z.of_N counter_delta ex_bob 3 (ex_first ++ ex_second) < 2 ^ 63)%Z)
    by (vm_compute; reflexivity).
  assert (NR : forall j, (3 <= j)%nat -> finished_calls ex_setup counter_code ex_order_program (ex_first ++ ex_second) j = [] /\
    call_underway ex_setup counter_code ex_order_program (ex_first ++ ex_second) j = None) by (intros j J; now apply (never_ran _ _ _ _ _ _ _ _ _ 3)).
  clearbody tr tr0.
  refine (C75_counter_rates ex_heck ex_ryu RY ex_setup OK RG NM ex_order_program SH ex_first ex_second 2 tr [] 3 U E NR 1 tr0 [(ex_bob, 11%N)] [(ex_bob, 15%N)]
    _ R0 R1 _ _ [str "app"%string] (str "hits"%string) _ _ (SC _) (SC _)).
  - rewrite I0. now left.
  - intros g [<-|[<-|[]]]; exact KP.
  - intros g [<-|[]]. exact B.
Qed.

(** The histograms of C74: [ex_ryu] writes the bits of a float. *)
Example C75_histogram_case :
  let first := [(ex_bob, Some ([1; 0], 0, 4602678819172646912))]%N in let second := [(ex_bob, Some ([1; 2], 2, 4622100592565682176))]%N in
  nth 0 (ex_horder_results ex_hfirst 1) Failed = Collected first /\
  In (Collected second) (ex_horder_results (ex_hfirst ++ ex_hsecond) 2) /\
  (sum_begun ex_setup (hist_code 2) ex_horder_program hist_added hist_count hist_most ex_bob 3 (ex_hfirst ++ ex_hsecond) < 2 ^ 63)%Z /\
  ex_scrape_text (ex_hist_family first) = ex_lines
    ["# TYPE up gauge"; "up 1"; ""; "# HELP app_hits Requests."; "# TYPE app_hits histogram";
     "app_hits_bucket{path=""/b"",verb=""put"",user=""bob"",peer=""ann"",le=""4607182418800017408""} 1";
     "app_hits_bucket{path=""/b"",verb=""put"",user=""bob"",peer=""ann"",le=""4611686018427387904""} 1";
     "app_hits_bucket{path=""/b"",verb=""put"",user=""bob"",peer=""ann"",le=""+Inf""} 1";
     "app_hits_sum{path=""/b"",verb=""put"",user=""bob"",peer=""ann""} 4602678819172646912";
     "app_hits_count{path=""/b"",verb=""put"",user=""bob"",peer=""ann""} 1"]%string.
Proof.
  split; [vm_refl|]. split; [|split; [vm_compute; reflexivity|vm_refl]].
  set (results := ex_horder_results _ _). assert (E : results = ex_horder_results ex_hfirst 2 ++ [Collected [(ex_bob, Some ([1; 2], 2, 4622100592565682176))]]%N)
    by (vm_compute; reflexivity). rewrite E. apply in_or_app. right. now left.
Qed.

(** The same for dense vecs, whose groups come in the order of the label set; [visit] gives
    the label values of a group. *)
Theorem C75_dense_counters : forall (L : lgset) wt (visit : lg_group L -> labels) float_text bd, float_text_ok float_text ->
forall (w : dense_setup L) (geq : forall a b : lg_group L, {a = b} + {a <> b}), dense_ok_setup L wt w -> (forall g, labels_valid (visit g)) ->
forall P : dense_program L counter_op N, dense_shaped wt w P ->
  forall s0 s1 i tr rest n, dense_underway w counter_code P s0 i = None ->
  dense_finished w counter_code P (s0 ++ s1) i = dense_finished w counter_code P s0 i ++ (ECollect, tr) :: rest ->
  (forall j, (n <= j)%nat -> dense_finished w counter_code P (s0 ++ s1) j = [] /\ dense_underway w counter_code P (s0 ++ s1) j = None) ->
  forall l, dense_result_of ECollect tr = DCollected l ->
  (forall g, In g (map fst l) -> (dense_sum_begun w counter_code P geq (fun u _ => counter_delta u) counter_delta g n (s0 ++ s1) < 2 ^ 63)%Z) ->
  forall nss base sc, scrape_of nss base (collected_family visit KCounter MCounter l) sc ->
  exists lines, scrape_shows float_text bd sc lines /\
    family_text (full_name nss base []) KCounter
      (fun g part => exists z i, part = [i] /\ int_sample float_text (full_name nss base []) (visit g) z i /\
         (dense_sum_finished w counter_code P geq (fun u _ => counter_delta u) g n s0 <= z <=
          dense_sum_begun w counter_code P geq (fun u _ => counter_delta u) counter_delta g n (s0 ++ s1))%Z) (map fst l) lines /\
    (exists ks, Forall2 (dense_id wt w) (map fst l) ks /\ StronglySorted lt ks) /\
    (forall j g u t r, In (EUpdate g u, t) (dense_finished w counter_code P s0 j) -> dense_result_of (EUpdate g u) t = DReturned r -> In g (map fst l)) /\
    (forall g, In g (map fst l) -> exists j u, dense_begun w counter_code P (s0 ++ s1) j (EUpdate g u)).
Proof. exact @dense_counter_text. Qed.
Print Assumptions C75_dense_counters.

Theorem C75_dense_counter_rates : forall (L : lgset) wt (visit : lg_group L -> labels) float_text bd, float_text_ok float_text ->
forall (w : dense_setup L) (geq : forall a b : lg_group L, {a = b} + {a <> b}), dense_ok_setup L wt w -> (forall g, labels_valid (visit g)) ->
forall P : dense_program L counter_op N, dense_shaped wt w P ->
  forall s0 s1 i tr rest n, dense_underway w counter_code P s0 i = None ->
  dense_finished w counter_code P (s0 ++ s1) i = dense_finished w counter_code P s0 i ++ (ECollect, tr) :: rest ->
  (forall j, (n <= j)%nat -> dense_finished w counter_code P (s0 ++ s1) j = [] /\ dense_underway w counter_code P (s0 ++ s1) j = None) ->
  forall i0 tr0 l0 l, In (ECollect, tr0) (dense_finished w counter_code P s0 i0) -> dense_result_of ECollect tr0 = DCollected l0 ->
  dense_result_of ECollect tr = DCollected l ->
  (forall g, In g (map fst l) -> (dense_sum_begun w counter_code P geq (fun u _ => counter_delta u) counter_delta g n (s0 ++ s1) < 2 ^ 63)%Z) ->
  forall nss base sc0 sc, scrape_of nss base (collected_family visit KCounter MCounter l0) sc0 ->
  scrape_of nss base (collected_family visit KCounter MCounter l) sc ->
  exists lines0 lines, scrape_shows float_text bd sc0 lines0 /\ scrape_shows float_text bd sc lines /\ series_grow [] lines0 lines.
Proof. exact @dense_counter_rates. Qed.
Print Assumptions C75_dense_counter_rates.

Theorem C75_dense_histograms : forall (L : lgset) wt (visit : lg_group L -> labels) float_text bd, float_text_ok float_text ->
forall (w : dense_setup L) (geq : forall a b : lg_group L, {a = b} + {a <> b}), dense_ok_setup L wt w -> (forall g, labels_valid (visit g)) ->
forall b (P : dense_program L hist_op hist_res), dense_shaped wt w P ->
  forall s0 s1 i tr rest n, dense_underway w (hist_code b) P s0 i = None ->
  dense_finished w (hist_code b) P (s0 ++ s1) i = dense_finished w (hist_code b) P s0 i ++ (ECollect, tr) :: rest ->
  (forall j, (n <= j)%nat -> dense_finished w (hist_code b) P (s0 ++ s1) j = [] /\ dense_underway w (hist_code b) P (s0 ++ s1) j = None) ->
  forall l, dense_result_of ECollect tr = DCollected l ->
  (forall g, In g (map fst l) -> (dense_sum_begun w (hist_code b) P geq hist_added hist_most g n (s0 ++ s1) < 2 ^ 63)%Z) ->
  forall ts, length ts = b ->
  forall nss base sc, scrape_of nss base (collected_family visit KHistogram (read_histogram ts) l) sc ->
  exists lines, scrape_shows float_text bd sc lines /\
    family_text (full_name nss base []) KHistogram
      (fun g part => exists bs inf sum, In (g, Some (bs, inf, sum)) l /\ histogram_lines float_text nss base (visit g) ts bs inf sum part /\
         (dense_sum_finished w (hist_code b) P geq hist_added g n s0 <= Z.of_N (first_buckets (length bs) bs + inf) <=
          dense_sum_begun w (hist_code b) P geq hist_added hist_most g n (s0 ++ s1))%Z) (map fst l) lines /\
    (exists ks, Forall2 (dense_id wt w) (map fst l) ks /\ StronglySorted lt ks) /\
    (forall j g u t r, In (EUpdate g u, t) (dense_finished w (hist_code b) P s0 j) -> dense_result_of (EUpdate g u) t = DReturned r -> In g (map fst l)) /\
    (forall g, In g (map fst l) -> exists j u, dense_begun w (hist_code b) P (s0 ++ s1) j (EUpdate g u)).
Proof. exact @dense_histogram_text. Qed.
Print Assumptions C75_dense_histograms.

Theorem C75_dense_histogram_rates : forall (L : lgset) wt (visit : lg_group L -> labels) float_text bd, float_text_ok float_text ->
forall (w : dense_setup L) (geq : forall a b : lg_group L, {a = b} + {a <> b}), dense_ok_setup L wt w -> (forall g, labels_valid (visit g)) ->
forall b (P : dense_program L hist_op hist_res), dense_shaped wt w P ->
  forall s0 s1 i tr rest n, dense_underway w (hist_code b) P s0 i = None ->
  dense_finished w (hist_code b) P (s0 ++ s1) i = dense_finished w (hist_code b) P s0 i ++ (ECollect, tr) :: rest ->
  (forall j, (n <= j)%nat -> dense_finished w (hist_code b) P (s0 ++ s1) j = [] /\ dense_underway w (hist_code b) P (s0 ++ s1) j = None) ->
  forall i0 tr0 l0 l, In (ECollect, tr0) (dense_finished w (hist_code b) P s0 i0) -> dense_result_of ECollect tr0 = DCollected l0 ->
  dense_result_of ECollect tr = DCollected l ->
  (forall g, In g (map fst l) -> (dense_sum_begun w (hist_code b) P geq hist_added hist_most g n (s0 ++ s1) < 2 ^ 63)%Z) ->
  forall ts, length ts = b ->
  forall nss base sc0 sc, scrape_of nss base (collected_family visit KHistogram (read_histogram ts) l0) sc0 ->
  scrape_of nss base (collected_family visit KHistogram (read_histogram ts) l) sc ->
  exists lines0 lines, scrape_shows float_text bd sc0 lines0 /\ scrape_shows float_text bd sc lines /\ series_grow [full_name nss base [str "sum"]] lines0 lines.
Proof. exact @dense_histogram_rates. Qed.
Print Assumptions C75_dense_histogram_rates.

(** The vec of C74_dense_case: 1 and 0, then 3, 1 and 11. *)
Example C75_dense_case :
  let first := [(ex_get_a, 1%N); (ex_del_a, 0%N)] in let second := [(ex_get_a, 3%N); (ex_put_b, 1%N); (ex_del_a, 11%N)] in
  nth 0 (ex_dorder_results ex_dfirst 1) DFailed = DCollected first /\ nth 0 (ex_dorder_results (ex_dfirst ++ ex_dsecond) 2) DFailed = DCollected second /\
  (forall g, labels_valid (ex_dense_visit g)) /\
  ex_scrape_text (collected_family ex_dense_visit KCounter MCounter first) = ex_lines
    ["# TYPE up gauge"; "up 1"; ""; "# HELP app_hits Requests."; "# TYPE app_hits counter"; "app_hits{verb=""G"",path=""a""} 1"; "app_hits{verb=""D"",path=""a""} 0"]%string /\
  ex_scrape_text (collected_family ex_dense_visit KCounter MCounter second) = ex_lines
    ["# TYPE up gauge"; "up 1"; ""; "# HELP app_hits Requests."; "# TYPE app_hits counter";
     "app_hits{verb=""G"",path=""a""} 3"; "app_hits{verb=""P"",path=""b""} 1"; "app_hits{verb=""D"",path=""a""} 11"]%string.
Proof. split; [vm_refl|]. split; [vm_refl|]. split; [exact ex_dense_names|]. split; vm_refl. Qed.
