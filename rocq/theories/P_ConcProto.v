(** Property C78: what is read in protobuf scrapes taken while threads use a vec.
    [w] has the label set and the shards, [P] says what each thread calls next; by
    the end of the schedule [s0] thread [i] has nothing underway, and then it
    collects the vec while the others go on with [s1]. *)
From Coq Require Import String List NArith ZArith Bool Arith Lia Sorted.
From Verif Require Import Base BaseFacts Writer NameModel NameSpec FloatModel MetricModel MetricExamples LabelModel LabelSpec EncoderModel TextModel TextSpec TextExamples
  EncoderSpec ScrapeSpec ScrapeExamples ProtoModel ProtoSpec ProtoEndSpec ProtoScrapeSpec ConcModel ConcSpec ConcExamples ConcTheorems ConcVecModel ConcVecSpec ConcVecTheorems ConcVecExamples
  ConcLabelModel ConcLabelSpec ConcLabelExamples ConcCallModel ConcCallSpec ConcCallTheorems ConcCallOrder ConcCallExamples P_ConcCall GroupProofs LawProofs
  ConcDenseModel ConcDenseSpec ConcDenseCallModel ConcDenseCallSpec ConcDenseCallProofs ConcDenseCallTheorems ConcDenseOrder ConcDenseCallExamples P_ConcDenseCall P_ConcOrder
  ConcScrapeModel ConcScrapeExamples ConcProtoSpec ConcProto ConcProtoDense ConcProtoExamples.
Import ListNotations.

(** The stream has one message for the vec, between those of the other families,
    with a metric for each group met by the collection: each group once, under its
    own label values, with the value that was read. *)
Theorem C78_messages : forall Sh Op Res Mic V St heck w (m : metric_code Sh Op Res Mic V) spec (st_new : St) aview (P : call_program Op Res V),
setup_ok w -> calls_shaped (su_fields w) P -> good_metric (mc_machine m) (mc_new m) (mc_view m) spec st_new aview ->
forall float_text s i tr l, In (CCollect, tr) (finished_calls w m P s i) -> result_of CCollect tr = Collected l -> l <> [] ->
  forall k read, k <> KHistogram -> (forall r, metric_kind (read r) = k) -> (forall g r, In (g, r) l -> bits_ok (read r)) ->
  forall nss base help sc, pscrape_of nss base help (collected_family (group_visit heck (su_fields w)) k read l) sc ->
  exists out, pscrape_writes float_text (su_build w) sc out /\ NoDup (map fst l) /\
    ((nlen out < 2 ^ 64)%N -> exists p, stream_has float_text sc out p /\
       message (full_name nss base []) help k
         (fun g q => exists ls r, group_shown heck (su_fields w) g ls /\ In (g, r) l /\ sample_shows float_text (fun z x => x = f_of_Z z) (ls, read r) q) (map fst l) p).
Proof. exact @scrape_messages. Qed.
Print Assumptions C78_messages.

(** A counter vec: each metric is a double for a number between what had been added
    to the counter when the collection began and what the calls begun by its end may
    add.  Groups updated before are there; no others than those someone has begun
    to update. *)
Theorem C78_counters : forall heck float_text w, setup_ok w -> (forall k, (su_shard_of w k < su_shards w)%nat) ->
forall P : call_program counter_op N N, calls_shaped (su_fields w) P ->
  forall s0 s1 i tr rest n, call_underway w counter_code P s0 i = None ->
  finished_calls w counter_code P (s0 ++ s1) i = finished_calls w counter_code P s0 i ++ (CCollect, tr) :: rest ->
  (forall j, (n <= j)%nat -> finished_calls w counter_code P (s0 ++ s1) j = [] /\ call_underway w counter_code P (s0 ++ s1) j = None) ->
  forall l, result_of CCollect tr = Collected l -> l <> [] -> (forall g, In g (map fst l) -> forall j hd, P j hd <> Some (CDelete g)) ->
  (forall g, In g (map fst l) -> (sum_begun w counter_code P (fun u _ => counter_delta u) Z.of_N counter_delta g n (s0 ++ s1) < 2 ^ 64)%Z) ->
  forall nss base help sc, pscrape_of nss base help (collected_family (group_visit heck (su_fields w)) KCounter MCounter l) sc ->
  exists out, pscrape_writes float_text (su_build w) sc out /\ NoDup (map fst l) /\
    ((nlen out < 2 ^ 64)%N -> exists p, stream_has float_text sc out p /\
       message (full_name nss base []) help KCounter
         (fun g q => exists ls c, group_shown heck (su_fields w) g ls /\ counter_shown float_text ls c q /\
            (sum_finished w counter_code P (fun u _ => counter_delta u) Z.of_N g n s0 <= Z.of_N c <=
             sum_begun w counter_code P (fun u _ => counter_delta u) Z.of_N counter_delta g n (s0 ++ s1))%Z) (map fst l) p) /\
    (forall g, (forall j hd, P j hd <> Some (CDelete g)) -> forall j u t r, In (CUpdate g u, t) (finished_calls w counter_code P s0 j) ->
       result_of (CUpdate g u) t = Returned r -> In g (map fst l)) /\
    (forall g, In g (map fst l) -> exists j u, call_begun w counter_code P (s0 ++ s1) j (CUpdate g u)).
Proof. exact counter_messages. Qed.
Print Assumptions C78_counters.

(** Of two scrapes one after the other, the second has every counter of the first,
    and its double is no less. *)
Theorem C78_counter_rates : forall heck float_text w, setup_ok w -> (forall k, (su_shard_of w k < su_shards w)%nat) ->
forall P : call_program counter_op N N, calls_shaped (su_fields w) P ->
  forall s0 s1 i tr rest n, call_underway w counter_code P s0 i = None ->
  finished_calls w counter_code P (s0 ++ s1) i = finished_calls w counter_code P s0 i ++ (CCollect, tr) :: rest ->
  (forall j, (n <= j)%nat -> finished_calls w counter_code P (s0 ++ s1) j = [] /\ call_underway w counter_code P (s0 ++ s1) j = None) ->
  forall i0 tr0 l0 l, In (CCollect, tr0) (finished_calls w counter_code P s0 i0) -> result_of CCollect tr0 = Collected l0 -> result_of CCollect tr = Collected l ->
  l0 <> [] -> (forall g, In g (map fst l0 ++ map fst l) -> forall j hd, P j hd <> Some (CDelete g)) ->
  (forall g, In g (map fst l) -> (sum_begun w counter_code P (fun u _ => counter_delta u) Z.of_N counter_delta g n (s0 ++ s1) < 2 ^ 64)%Z) ->
  forall nss base help sc0 sc, pscrape_of nss base help (collected_family (group_visit heck (su_fields w)) KCounter MCounter l0) sc0 ->
  pscrape_of nss base help (collected_family (group_visit heck (su_fields w)) KCounter MCounter l) sc ->
  exists out0 out, pscrape_writes float_text (su_build w) sc0 out0 /\ pscrape_writes float_text (su_build w) sc out /\
    ((nlen out0 < 2 ^ 64)%N -> (nlen out < 2 ^ 64)%N ->
     exists p0 p, stream_has float_text sc0 out0 p0 /\ stream_has float_text sc out p /\ pf_name p = Some (full_name nss base []) /\ counters_rise p0 p).
Proof. exact counter_messages_rise. Qed.
Print Assumptions C78_counter_rates.

(** Two scrapes of the counters of C74, 11 and then 15 for bob. *)
Example C78_case : let first := [(ex_bob, 11)]%N in let second := [(ex_bob, 15)]%N in
  let bob := map (fun s => Some (str s)) ["/b"; "put"; "bob"; "ann"]%string in
  let up := (Some (str "up"), None, [([], None, Some (Some (f_of_Z 1)))])%string in
  nth 0 (ex_order_results ex_first 1) Failed = Collected first /\ nth 1 (ex_order_results (ex_first ++ ex_second) 2) Failed = Collected second /\
  ex_pscrape_read (ex_counter_family first) = Some [up; (Some (str "app_hits"), Some (str "Requests."), [(bob, Some (Some (f_of_Z 11)), None)])]%string /\
  ex_pscrape_read (ex_counter_family second) = Some [up; (Some (str "app_hits"), Some (str "Requests."), [(bob, Some (Some (f_of_Z 15)), None)])]%string.
Proof. vm_compute. repeat split. Qed.

(** So the theorem applies. *)
Example C78_applied : exists out0 out, pscrape_writes ex_ryu Debug (ex_pscrape (ex_counter_family [(ex_bob, 11%N)])) out0 /\
  pscrape_writes ex_ryu Debug (ex_pscrape (ex_counter_family [(ex_bob, 15%N)])) out /\ (nlen out0 < 2 ^ 64)%N /\ (nlen out < 2 ^ 64)%N /\
  exists p0 p, stream_has ex_ryu (ex_pscrape (ex_counter_family [(ex_bob, 11%N)])) out0 p0 /\ stream_has ex_ryu (ex_pscrape (ex_counter_family [(ex_bob, 15%N)])) out p /\
    counters_rise p0 p.
Proof.
  destruct C64_hypotheses as (OK & _ & _ & RG & _). destruct C74_hypotheses as (SH & _ & KP & _).
  set (tr := snd (nth 1 (finished_calls ex_setup counter_code ex_order_program (ex_first ++ ex_second) 2) (CCollect, []))).
  set (tr0 := snd (nth 0 (finished_calls ex_setup counter_code ex_order_program ex_first 1) (CCollect, []))).
  assert (E : finished_calls ex_setup counter_code ex_order_program (ex_first ++ ex_second) 2 =
    finished_calls ex_setup counter_code ex_order_program ex_first 2 ++ (CCollect, tr) :: []) by (vm_compute; reflexivity).
  assert (I0 : finished_calls ex_setup counter_code ex_order_program ex_first 1 = [(CCollect, tr0)]) by (vm_compute; reflexivity).
  assert (R0 : result_of CCollect tr0 = Collected [(ex_bob, 11%N)]) by (vm_compute; reflexivity).
  assert (R1 : result_of CCollect tr = Collected [(ex_bob, 15%N)]) by (vm_compute; reflexivity).
  assert (U : call_underway ex_setup counter_code ex_order_program ex_first 2 = None) by (vm_compute; reflexivity).
  assert (B : (sum_begun ex_setup counter_code ex_order_program (fun u _ => counter_delta u) Z.of_N counter_delta ex_bob 3 (ex_first ++ ex_second) < 2 ^ 64)%Z)
    by (vm_compute; reflexivity).
  assert (NR : forall j, (3 <= j)%nat -> finished_calls ex_setup counter_code ex_order_program (ex_first ++ ex_second) j = [] /\
    call_underway ex_setup counter_code ex_order_program (ex_first ++ ex_second) j = None) by (intros j J; now apply (never_ran _ _ _ _ _ _ _ _ _ 3)).
  clearbody tr tr0.
  destruct (C78_counter_rates ex_heck ex_ryu ex_setup OK RG ex_order_program SH ex_first ex_second 2 tr [] 3 U E NR 1 tr0 [(ex_bob, 11%N)] [(ex_bob, 15%N)])
    with (nss := [str "app"%string]) (base := str "hits"%string) (help := Some (str "Requests."%string))
      (sc0 := ex_pscrape (ex_counter_family [(ex_bob, 11%N)])) (sc := ex_pscrape (ex_counter_family [(ex_bob, 15%N)])) as (out0 & out & W0 & W1 & H);
    [rewrite I0; now left|exact R0|exact R1|discriminate| | |apply ex_pscrape_of|apply ex_pscrape_of|].
  - intros g [<-|[<-|[]]]; exact KP.
  - intros g [<-|[]]. exact B.
  - assert (S : forall F o, pscrape_writes ex_ryu Debug (ex_pscrape F) o ->
      o = w_out (pe_writer (fst (proto_scrapes ex_ryu Debug [pc_group (ex_pscrape F)] (proto_new (good_writer [])))))).
    { intros F o (st & X & <-). cbn [ex_pscrape pc_writer] in X. now rewrite X. }
    assert (L0 : (nlen out0 < 2 ^ 64)%N) by (apply S in W0; subst out0; vm_compute; reflexivity).
    assert (L1 : (nlen out < 2 ^ 64)%N) by (apply S in W1; subst out; vm_compute; reflexivity).
    exists out0, out. split; [exact W0|]. split; [exact W1|]. split; [exact L0|]. split; [exact L1|].
    destruct (H L0 L1) as (p0 & p & A & C & _ & D). exists p0, p. auto.
Qed.

(** The same for dense vecs, whose groups come in the order of the label set; [visit]
    gives the label values of a group. *)
Theorem C78_dense_counters : forall (L : lgset) wt (visit : lg_group L -> labels) float_text bd (w : dense_setup L)
(geq : forall a b : lg_group L, {a = b} + {a <> b}), dense_ok_setup L wt w ->
forall P : dense_program L counter_op N, dense_shaped wt w P ->
  forall s0 s1 i tr rest n, dense_underway w counter_code P s0 i = None ->
  dense_finished w counter_code P (s0 ++ s1) i = dense_finished w counter_code P s0 i ++ (ECollect, tr) :: rest ->
  (forall j, (n <= j)%nat -> dense_finished w counter_code P (s0 ++ s1) j = [] /\ dense_underway w counter_code P (s0 ++ s1) j = None) ->
  forall l, dense_result_of ECollect tr = DCollected l -> l <> [] ->
  (forall g, In g (map fst l) -> (dense_sum_begun w counter_code P geq (fun u _ => counter_delta u) counter_delta g n (s0 ++ s1) < 2 ^ 64)%Z) ->
  forall nss base help sc, pscrape_of nss base help (collected_family visit KCounter MCounter l) sc ->
  exists out, pscrape_writes float_text bd sc out /\
    ((nlen out < 2 ^ 64)%N -> exists p, stream_has float_text sc out p /\
       message (full_name nss base []) help KCounter
         (fun g q => exists c, counter_shown float_text (visit g) c q /\
            (dense_sum_finished w counter_code P geq (fun u _ => counter_delta u) g n s0 <= Z.of_N c <=
             dense_sum_begun w counter_code P geq (fun u _ => counter_delta u) counter_delta g n (s0 ++ s1))%Z) (map fst l) p) /\
    (exists ks, Forall2 (dense_id wt w) (map fst l) ks /\ StronglySorted lt ks) /\
    (forall j g u t r, In (EUpdate g u, t) (dense_finished w counter_code P s0 j) -> dense_result_of (EUpdate g u) t = DReturned r -> In g (map fst l)) /\
    (forall g, In g (map fst l) -> exists j u, dense_begun w counter_code P (s0 ++ s1) j (EUpdate g u)).
Proof. exact @dense_counter_messages. Qed.
Print Assumptions C78_dense_counters.

Theorem C78_dense_counter_rates : forall (L : lgset) wt (visit : lg_group L -> labels) float_text bd (w : dense_setup L)
(geq : forall a b : lg_group L, {a = b} + {a <> b}), dense_ok_setup L wt w ->
forall P : dense_program L counter_op N, dense_shaped wt w P ->
  forall s0 s1 i tr rest n, dense_underway w counter_code P s0 i = None ->
  dense_finished w counter_code P (s0 ++ s1) i = dense_finished w counter_code P s0 i ++ (ECollect, tr) :: rest ->
  (forall j, (n <= j)%nat -> dense_finished w counter_code P (s0 ++ s1) j = [] /\ dense_underway w counter_code P (s0 ++ s1) j = None) ->
  forall i0 tr0 l0 l, In (ECollect, tr0) (dense_finished w counter_code P s0 i0) -> dense_result_of ECollect tr0 = DCollected l0 ->
  dense_result_of ECollect tr = DCollected l -> l0 <> [] ->
  (forall g, In g (map fst l) -> (dense_sum_begun w counter_code P geq (fun u _ => counter_delta u) counter_delta g n (s0 ++ s1) < 2 ^ 64)%Z) ->
  forall nss base help sc0 sc, pscrape_of nss base help (collected_family visit KCounter MCounter l0) sc0 ->
  pscrape_of nss base help (collected_family visit KCounter MCounter l) sc ->
  exists out0 out, pscrape_writes float_text bd sc0 out0 /\ pscrape_writes float_text bd sc out /\
    ((nlen out0 < 2 ^ 64)%N -> (nlen out < 2 ^ 64)%N ->
     exists p0 p, stream_has float_text sc0 out0 p0 /\ stream_has float_text sc out p /\ pf_name p = Some (full_name nss base []) /\ counters_rise p0 p).
Proof. exact @dense_counter_messages_rise. Qed.
Print Assumptions C78_dense_counter_rates.

(** The vec of C74_dense_case: 1 and 0, then 3, 1 and 11. *)
Example C78_dense_case :
  let first := [(ex_get_a, 1%N); (ex_del_a, 0%N)] in let second := [(ex_get_a, 3%N); (ex_put_b, 1%N); (ex_del_a, 11%N)] in
  let up := (Some (str "up"), None, [([], None, Some (Some (f_of_Z 1)))])%string in
  let row v p z := (map (fun s => Some (str s)) [v; p], Some (Some (f_of_Z z)), None : option (option f64)) in
  nth 0 (ex_dorder_results ex_dfirst 1) DFailed = DCollected first /\ nth 0 (ex_dorder_results (ex_dfirst ++ ex_dsecond) 2) DFailed = DCollected second /\
  ex_pscrape_read (collected_family ex_dense_visit KCounter MCounter first) =
    Some [up; (Some (str "app_hits"), Some (str "Requests."), [row "G" "a" 1%Z; row "D" "a" 0%Z])]%string /\
  ex_pscrape_read (collected_family ex_dense_visit KCounter MCounter second) =
    Some [up; (Some (str "app_hits"), Some (str "Requests."), [row "G" "a" 3%Z; row "P" "b" 1%Z; row "D" "a" 11%Z])]%string.
Proof. split; [vm_refl|]. split; [vm_refl|]. split; vm_refl. Qed.
