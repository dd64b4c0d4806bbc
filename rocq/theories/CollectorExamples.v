(** Concrete systems and runtimes for C50 to C52 and C56. *)
From Coq Require Import String List NArith ZArith Bool Lia.
From Verif Require Import Base Writer NameModel NameSpec LabelModel FloatModel EncoderModel
  TextModel TextSpec EncoderSpec TextExamples ProtoModel ProtoSpec MetricModel CollectorModel CollectorSpec CollectorFacts.
Import ListNotations.
Local Open Scope N_scope.

(** A caller with pid 7 that started 350 ticks after boot, and process 9, started
    later. *)
Definition ex_stat (start : N) : proc_stat :=
  {| ps_starttime := start; ps_vsize := 8192; ps_rss := 3; ps_utime := 150; ps_stime := 99; ps_num_threads := 4%Z |}.
Definition ex_proc (start : N) : proc :=
  {| p_fd_count := Some 12; p_soft_limit := Some (LimitValue 1024); p_stat := Some (ex_stat start) |}.
Definition ex_os : os :=
  {| os_self := 7%Z; os_boot_time := Some 1000;
     os_process := fun pid => if (pid =? 7)%Z then Some (ex_proc 350) else if (pid =? 9)%Z then Some (ex_proc 90000) else None;
     os_clk_tck := 100%Z; os_pagesize := 4096%Z |}.

Lemma ex_os_ok : os_ok ex_os.
Proof.
  split; [cbn; lia|]. split; [cbn; lia|]. intros pid p E.
  assert (X : exists s, (s = 350 \/ s = 90000) /\ p = ex_proc s).
  { cbn in E. destruct (pid =? 7)%Z; [inversion E; exists 350; auto|]. destruct (pid =? 9)%Z; [inversion E; exists 90000; auto|discriminate]. }
  destruct X as (s & S & ->). split; [intros n N; inversion N; vm_compute; split; congruence|].
  split; [intros n N; inversion N; vm_compute; split; congruence|].
  assert (B : forall boot, os_boot_time ex_os = Some boot -> boot = 1000) by (intros boot B; inversion B; reflexivity).
  intros st N. inversion N; subst st. clear E N.
  destruct S as [-> | ->]; cbn [ex_stat ps_vsize ps_rss ps_utime ps_stime ps_num_threads ps_starttime ex_os os_pagesize] in *;
    unfold small; repeat match goal with |- _ /\ _ => split end; try lia; intros boot B'; rewrite (B boot B'); lia.
Qed.

(** Two workers, two buckets, the second without end. *)
Definition ex_rt (busy : N) : runtime :=
  {| rt_num_workers := 2; rt_num_blocking_threads := 5; rt_num_idle_blocking_threads := 2; rt_active_tasks := 17;
     rt_blocking_queue_depth := 1; rt_injection_queue_depth := 0;
     rt_local_queue_depth := fun w => w + 3; rt_local_schedule_count := fun w => 10 * w; rt_overflow_count := fun w => w;
     rt_remote_schedule_count := 6; rt_forced_yield_count := 2;
     rt_mean_poll_time := fun w => {| d_secs := 0; d_nanos := 500000000 |};
     rt_noop_count := fun w => 1; rt_park_count := fun w => 2; rt_steal_count := fun w => 3; rt_steal_operations := fun w => 4;
     rt_histogram_enabled := true; rt_num_buckets := 2;
     rt_bucket_end := fun b => if b =? 0 then {| d_secs := 1; d_nanos := 0 |} else duration_max_nanos;
     rt_bucket_count := fun w b => if b =? 0 then 40 + w else 2;
     rt_poll_count := fun w => 42 + w; rt_busy_duration := fun w => {| d_secs := busy; d_nanos := 250000000 |};
     rt_fd_registered := 8; rt_fd_deregistered := 7; rt_io_ready := 99 |}.

Lemma ex_rt_ok : forall busy, runtime_ok (ex_rt busy).
Proof.
  intros busy. do 11 (split; [reflexivity|]). intros w W. cbn [ex_rt rt_num_workers] in W.
  assert (X : w = 0 \/ w = 1) by lia.
  destruct X as [-> | ->]; repeat match goal with |- _ /\ _ => split end; reflexivity.
Qed.

Definition ex_runtimes : list runtime_collector :=
  named_add (named_add [] (ex_rt 3) (str "main")) (ex_rt 5) (str "aux").
Definition ex_twice : list runtime_collector :=
  named_add (named_add [] (ex_rt 3) (str "main")) (ex_rt 5) (str "main").

(** Lower case, as the default conversion makes of one word. *)
Definition ex_lower (_ : rename_all) (s : bytes) : bytes :=
  map (fun b => if (65 <=? b) && (b <=? 90) then b + 32 else b) s.

Lemma ex_kinds : kinds_differ ex_lower.
Proof.
  unfold kinds_differ. cbn [map]. repeat constructor; cbn [In]; intros H; repeat destruct H as [H|H]; try (vm_compute in H; discriminate); exact H.
Qed.
Lemma ex_bounds : forall busy, bounds_differ ex_ryu (ex_rt busy).
Proof.
  intros busy j k L a b t BA BB [A B]. apply bound_exact in BA. apply bound_exact in BB. subst a b. cbn [ex_rt rt_num_buckets] in L. assert (j = 0 /\ k = 1) as [-> ->] by lia.
  revert A B. cbn [label_shows].
  change (f_decode (histogram_le (ex_rt busy) 0)) with (f_decode (as_secs_f64 {| d_secs := 1; d_nanos := 0 |})).
  change (f_decode (histogram_le (ex_rt busy) 1)) with (f_decode f_infinity).
  change (histogram_le (ex_rt busy) 0) with (as_secs_f64 {| d_secs := 1; d_nanos := 0 |}).
  intros A B. vm_compute in A, B. subst. discriminate.
Qed.

(** The same name and labels for two samples of different runtimes. *)
Definition same_series (a b : cfamily * csample) : Prop :=
  cf_name (fst a) = cf_name (fst b) /\ sm_suffix (snd a) = sm_suffix (snd b) /\
  sm_labels (snd a) = sm_labels (snd b) /\ sm_metric (snd a) <> sm_metric (snd b).

Definition ex_text (collect : encoder text_enc -> io text_enc) : option (list item) :=
  match collect (text_encoder ex_ryu Debug) (text_new (good_writer [])) with
  | (s, ROk) => parse (w_out (te_writer s))
  | _ => None
  end.
Definition ex_proto (collect : encoder proto_enc -> io proto_enc) : option (list pfamily) :=
  match (collect (proto_encoder ex_ryu Debug) ;;? proto_flush Debug ROk) (proto_new (good_writer [])) with
  | (s, ROk) => read_stream (w_out (pe_writer s))
  | _ => None
  end.
