(** The statements of C50 to C52 and C56, put together. *)
From Coq Require Import String List NArith ZArith Bool Lia.
From Verif Require Import Base Writer NameModel NameSpec LabelModel FloatModel EncoderModel
  TextModel TextSpec EncoderSpec ProtoModel ProtoSpec MetricModel CollectorModel CollectorSpec
  CollectorProofs CollectorTheorems CollectorFormats CollectorFacts TextExamples CollectorExamples.
Import ListNotations.
Local Open Scope N_scope.

(* ------------------------------------------------------------------ *)
(** ** C50 *)

Lemma process_shape : forall o c, Forall (fun f => exists name v, gauge_family name v f) (process_families o c).
Proof.
  intros o c. assert (G : forall a b v, exists name z, gauge_family name z (fig a b v)) by (intros; eexists; eexists; split; reflexivity).
  unfold process_families. destruct (os_process o (pc_pid c)) as [p|]; cbn [onto]; [|constructor].
  apply Forall_app. split; [destruct (p_fd_count p); cbn [onto]; auto|].
  apply Forall_app. split; [destruct (p_soft_limit p) as [[|n]|]; auto|].
  apply Forall_app. split; [destruct (p_stat p); cbn [onto]; auto 6|].
  destruct (pc_start_time c); cbn [onto]; auto.
Qed.

Lemma process_main : forall bd o c p, os_ok o -> os_process o (pc_pid c) = Some p -> exists fs,
  exports (fun S e => process_collect bd o c e) fs /\ NoDup (map cf_name fs) /\
  Forall (fun f => exists name v, gauge_family name v f) fs /\
  forall name v, (exists f, In f fs /\ gauge_family name v f) <->
    figure o p name v \/ (name = str "start_time_seconds" /\ pc_start_time c = Some v).
Proof.
  intros bd o c p OK P. exists (process_families o c).
  split; [apply process_exports, OK|]. split; [apply process_names|]. split; [apply process_shape|].
  intros name v. apply process_figures; [apply OK|exact P].
Qed.

Lemma process_gone : forall bd o c, os_process o (pc_pid c) = None ->
  exports (fun S e => process_collect bd o c e) [].
Proof. intros bd o c P S e nss s. unfold process_collect. rewrite P. reflexivity. Qed.

Lemma process_self_main : forall bd o, os_ok o -> exists c, process_for_self bd o = Done c /\ pc_pid c = os_self o /\
  forall v, pc_start_time c = Some v <-> started o (pc_pid c) v.
Proof.
  intros bd o OK. destruct (process_new_start bd o (os_self o) OK) as (c & E & P & H).
  exists c. split; [exact E|]. split; [exact P|]. rewrite P. exact H.
Qed.

Lemma start_refuted : os_ok ex_os /\ started ex_os 9 1900 /\ exists c, process_new Debug ex_os 9 = Done c /\
  pc_start_time c = Some 1003%Z /\ ~ started ex_os 9 1003.
Proof.
  split; [exact ex_os_ok|]. split.
  - exists 1000, (ex_proc 90000), (ex_stat 90000). repeat split; try reflexivity; cbn; lia.
  - eexists. split; [reflexivity|]. split; [reflexivity|].
    intros (b & p & st & B & P & S & L). inversion B; subst. inversion P; subst. inversion S; subst. cbn in L. lia.
Qed.

Lemma start_range : forall bd o pid c, os_ok o -> process_new bd o pid = Done c ->
  forall v, pc_start_time c = Some v -> (- 2 ^ 63 <= v < 2 ^ 63)%Z.
Proof.
  intros bd o pid c OK E v V. destruct (process_new_start bd o pid OK) as (c' & E' & _ & H).
  rewrite E in E'. inversion E'; subst c'. apply H in V. destruct V as (b & p & st & B & P & S & L).
  destruct OK as (T & _ & Q). destruct (Q _ _ P) as (_ & _ & R). destruct (R _ S) as (_ & _ & _ & _ & R1 & R2).
  specialize (R2 _ B). unfold small in *.
  assert (0 <= v - Z.of_N b)%Z by nia. assert (v - Z.of_N b <= Z.of_N (ps_starttime st))%Z by nia. lia.
Qed.

(* ------------------------------------------------------------------ *)
(** ** C51 *)

Lemma blocks_untyped : forall ryu nss fs items, families_blocks ryu nss fs items -> forall n w, ~ In (Type_ n w) items.
Proof.
  intros ryu nss fs items (blocks & B & E) n w I.
  assert (J : In (Type_ n w) (concat blocks)) by (rewrite <- E; apply filter_In; split; [exact I|reflexivity]).
  clear E I. induction B as [|f b fs blocks (rest & -> & L) _ IH]; [exact J|].
  cbn [concat app] in J. destruct J as [J|J]; [discriminate|]. apply in_app_or in J. destruct J as [J|J]; [|exact (IH J)].
  clear IH. induction L as [|s i ss rest S _ IH]; [exact J|]. destruct J as [-> | J]; [|exact (IH J)].
  unfold sample_line_of in S. destruct (sm_metric s); [| | |exact S];
    destruct S as (? & ? & S); decompose [ex and] S; discriminate.
Qed.

Section Both.
  Context (ryu : f64 -> bytes) (bd : build) (RYU : float_text_ok ryu).
  Context (nss : list bytes) (NSS : Forall valid_metric_name nss).

  Lemma process_text_main : forall o o' pid c w, os_ok o -> process_new bd o pid = Done c -> os_ok o' -> reliable w ->
    exists fs s out items, exports (fun S e => process_collect bd o' c e) fs /\ NoDup (map cf_name fs) /\
      process_collect bd o' c (below nss (text_encoder ryu bd)) (text_new w) = (s, ROk) /\
      w_out (te_writer s) = w_out w ++ out /\ parse out = Some items /\ families_blocks ryu nss fs items /\ framed items.
  Proof.
    intros o o' pid c w OK E OK' W. exists (process_families o' c).
    destruct (families_text ryu bd RYU nss NSS _ _ w (process_exports bd o' c OK')
      (process_ok o' c OK' (start_range bd o pid c OK E)) W) as (s & out & items & H).
    exists s, out, items. split; [apply process_exports, OK'|]. split; [apply process_names|]. exact H.
  Qed.

  Lemma tokio_text_main : forall heck net rts w, Forall (fun c => runtime_ok (rc_runtime c)) rts -> reliable w ->
    exists fs s out items, exports (fun S e => tokio_collect heck bd net e rts) fs /\ NoDup (map cf_name fs) /\
      tokio_collect heck bd net (below nss (text_encoder ryu bd)) rts (text_new w) = (s, ROk) /\
      w_out (te_writer s) = w_out w ++ out /\ parse out = Some items /\ families_blocks ryu nss fs items /\ framed items.
  Proof.
    intros heck net rts w OK W. exists (tokio_families heck net rts).
    destruct (families_text ryu bd RYU nss NSS _ _ w (tokio_exports heck bd net rts OK) (tokio_ok heck net rts OK) W)
      as (s & out & items & H).
    exists s, out, items. split; [apply tokio_exports, OK|]. split; [apply tokio_names|]. exact H.
  Qed.
End Both.

Lemma process_proto_main : forall ryu bd nss o o' pid c w, os_ok o -> process_new bd o pid = Done c -> os_ok o' ->
  reliable w -> w_out w = [] ->
  exists fs s, exports (fun S e => process_collect bd o' c e) fs /\ NoDup (map cf_name fs) /\
    (process_collect bd o' c (below nss (proto_encoder ryu bd)) ;;? proto_flush bd ROk) (proto_new w) = (s, ROk) /\
    (nlen (w_out (pe_writer s)) < 2 ^ 64 ->
     exists ps, read_stream (w_out (pe_writer s)) = Some ps /\ Forall2 (family_message ryu nss) (nonempty fs) ps).
Proof.
  intros ryu bd nss o o' pid c w OK E OK' W O.
  destruct (families_proto ryu bd nss _ _ w (process_exports bd o' c OK')
    (process_ok o' c OK' (start_range bd o pid c OK E)) W O) as (s & H).
  exists (process_families o' c), s. split; [apply process_exports, OK'|]. split; [apply process_names|]. exact H.
Qed.

Lemma tokio_proto_main : forall ryu bd nss heck net rts w, Forall (fun c => runtime_ok (rc_runtime c)) rts ->
  reliable w -> w_out w = [] ->
  exists fs s, exports (fun S e => tokio_collect heck bd net e rts) fs /\ NoDup (map cf_name fs) /\
    (tokio_collect heck bd net (below nss (proto_encoder ryu bd)) rts ;;? proto_flush bd ROk) (proto_new w) = (s, ROk) /\
    (nlen (w_out (pe_writer s)) < 2 ^ 64 ->
     exists ps, read_stream (w_out (pe_writer s)) = Some ps /\ Forall2 (family_message ryu nss) (nonempty fs) ps).
Proof.
  intros ryu bd nss heck net rts w OK W O.
  destruct (families_proto ryu bd nss _ _ w (tokio_exports heck bd net rts OK) (tokio_ok heck net rts OK) W O) as (s & H).
  exists (tokio_families heck net rts), s. split; [apply tokio_exports, OK|]. split; [apply tokio_names|]. exact H.
Qed.

(* ------------------------------------------------------------------ *)
(** ** C52 *)

Lemma cumulative_main : forall heck bd net rts c w, Forall (fun c => runtime_ok (rc_runtime c)) rts ->
  NoDup (map rc_name rts) -> In c rts -> w < rt_num_workers (rc_runtime c) ->
  exists fs l, exports (fun S e => tokio_collect heck bd net e rts) fs /\ bucket_series c w fs l /\
    (rt_histogram_enabled (rc_runtime c) = false -> l = []) /\
    (rt_histogram_enabled (rc_runtime c) = true ->
     length l = N.to_nat (rt_num_buckets (rc_runtime c)) /\
     (forall k le v, nth_error l k = Some (le, v) ->
        bucket_bound (rc_runtime c) (N.of_nat k) le /\ v = polls (rc_runtime c) w (S k)) /\
     (forall i j le v le' v', (i <= j)%nat -> nth_error l i = Some (le, v) -> nth_error l j = Some (le', v') -> v <= v') /\
     (l <> [] -> snd (last l (0, 0)) = polls (rc_runtime c) w (N.to_nat (rt_num_buckets (rc_runtime c))))).
Proof.
  intros heck bd net rts c w OK ND I W. exists (tokio_families heck net rts), (bucket_list c w).
  split; [apply tokio_exports, OK|]. split; [apply series_exists; assumption|].
  pose proof (bucket_list_nth c w) as NTH. pose proof (bucket_list_length c w) as LEN.
  split; intros EN; rewrite EN in LEN.
  - destruct (bucket_list c w); [reflexivity|discriminate].
  - split; [exact LEN|]. split; [intros k le v H; apply NTH in H; rewrite bound_exact; tauto|]. split.
    + intros i j le v le' v' L A B. apply NTH in A. apply NTH in B. destruct A as (_ & -> & _), B as (_ & -> & _).
      apply polls_mono. lia.
    + intros NE. destruct (exists_last NE) as (r & [le v] & E). rewrite E in *. rewrite last_last.
      rewrite app_length in LEN. cbn [length] in LEN.
      destruct (NTH (length r) le v) as (_ & -> & _); [rewrite nth_error_app2, Nat.sub_diag by lia; reflexivity|].
      cbn [snd]. f_equal. lia.
Qed.

(* ------------------------------------------------------------------ *)
(** ** C56 *)

Lemma series_main : forall ryu nss heck bd net rts, Forall (fun c => runtime_ok (rc_runtime c)) rts ->
  NoDup (map rc_name rts) -> kinds_differ heck -> Forall (fun c => bounds_differ ryu (rc_runtime c)) rts ->
  exists fs, exports (fun S e => tokio_collect heck bd net e rts) fs /\
    ForallOrdPairs (fun a b => ~ clash ryu nss a b) (all_samples fs).
Proof.
  intros ryu nss heck bd net rts OK ND K B. exists (tokio_families heck net rts).
  split; [apply tokio_exports, OK|]. apply tokio_series; assumption.
Qed.

Lemma twice_ok : Forall (fun c => runtime_ok (rc_runtime c)) ex_twice.
Proof. constructor; [apply ex_rt_ok|]. constructor; [apply ex_rt_ok|constructor]. Qed.

Lemma series_refuted : forall ryu nss bd, exists fs a b,
  exports (fun S e => tokio_collect ex_lower bd false e ex_twice) fs /\
  nth_error (all_samples fs) 6 = Some a /\ nth_error (all_samples fs) 7 = Some b /\ clash ryu nss a b.
Proof.
  intros ryu nss bd. exists (tokio_families ex_lower false ex_twice). eexists. eexists.
  split; [apply tokio_exports, twice_ok|]. split; [reflexivity|]. split; [reflexivity|].
  split; [reflexivity|]. exists [(str "runtime", str "main")]. split; repeat constructor.
Qed.

(* ------------------------------------------------------------------ *)
(** ** Examples *)

Lemma proto_suffix : exists ps p m m',
  ex_proto (fun e => tokio_collect ex_lower Debug false e ex_runtimes) = Some ps /\
  In p ps /\ pf_name p = Some poll_family /\ length (pf_metrics p) = 16%nat /\
  nth_error (pf_metrics p) 2 = Some m /\ nth_error (pf_metrics p) 3 = Some m' /\
  pm_labels m = pm_labels m' /\ m <> m'.
Proof.
  do 4 eexists. split; [vm_compute; reflexivity|]. split; [do 10 right; left; reflexivity|].
  split; [reflexivity|]. split; [reflexivity|]. split; [reflexivity|]. split; [reflexivity|].
  split; [reflexivity|]. intros H. discriminate.
Qed.

Lemma runtimes_ok : Forall (fun c => runtime_ok (rc_runtime c)) ex_runtimes.
Proof. constructor; [apply ex_rt_ok|]. constructor; [apply ex_rt_ok|constructor]. Qed.
Lemma runtimes_names : NoDup (map rc_name ex_runtimes).
Proof. constructor; [intros [H|[]]; discriminate|]. constructor; [intros []|constructor]. Qed.

Lemma tokio_example : Forall (fun c => runtime_ok (rc_runtime c)) ex_runtimes /\
  (exists items, ex_text (fun e => tokio_collect ex_lower Debug false e ex_runtimes) = Some items /\ length items = 85%nat /\
     firstn 7 items =
       [Help (str "threads") (str "number of threads used by the runtime");
        Sample (str "threads") [(str "runtime", str "main"); (str "kind", str "worker")] (str "2") None;
        Sample (str "threads") [(str "runtime", str "main"); (str "kind", str "blocking")] (str "3") None;
        Sample (str "threads") [(str "runtime", str "main"); (str "kind", str "idle")] (str "2") None;
        Sample (str "threads") [(str "runtime", str "aux"); (str "kind", str "worker")] (str "2") None;
        Sample (str "threads") [(str "runtime", str "aux"); (str "kind", str "blocking")] (str "3") None;
        Sample (str "threads") [(str "runtime", str "aux"); (str "kind", str "idle")] (str "2") None]) /\
  exists ps, ex_proto (fun e => tokio_collect ex_lower Debug true e ex_runtimes) = Some ps /\ length ps = 14%nat.
Proof.
  split; [exact runtimes_ok|]. split; eexists.
  - split; [vm_compute; reflexivity|]. split; reflexivity.
  - split; [vm_compute; reflexivity|]. reflexivity.
Qed.

Lemma cumulative_example : NoDup (map rc_name ex_runtimes) /\ exists c, In c ex_runtimes /\ rc_name c = Some (str "main") /\
  1 < rt_num_workers (rc_runtime c) /\ rt_histogram_enabled (rc_runtime c) = true /\
  bucket_bound (rc_runtime c) 1 f_infinity /\ bucket_bound (rc_runtime c) 0 (f_of_Z 1) /\
  polls (rc_runtime c) 1 1 = 41 /\ polls (rc_runtime c) 1 2 = 43.
Proof.
  split; [exact runtimes_names|]. eexists. split; [left; reflexivity|].
  repeat match goal with |- _ /\ _ => split end; try apply bound_exact; vm_compute; reflexivity.
Qed.

Lemma series_example : Forall (fun c => runtime_ok (rc_runtime c)) ex_runtimes /\ NoDup (map rc_name ex_runtimes) /\
  kinds_differ ex_lower /\ Forall (fun c => bounds_differ ex_ryu (rc_runtime c)) ex_runtimes.
Proof.
  split; [exact runtimes_ok|]. split; [exact runtimes_names|]. split; [exact ex_kinds|].
  constructor; [apply ex_bounds|]. constructor; [apply ex_bounds|constructor].
Qed.
