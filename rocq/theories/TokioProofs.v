(** The figures of runtimes; where the process collector panics. *)
From Coq Require Import String List NArith ZArith Bool Lia ZifyBool ZifyN ZifyNat.
From Verif Require Import Base BaseFacts Writer NameModel LabelModel FloatModel TextModel EncoderModel MetricModel CollectorModel
  CollectorSpec CollectorProofs CollectorTheorems CollectorFacts CollectorFinal TokioSpec.
Import ListNotations.
Local Open Scope N_scope.

(** ** Figures *)

Section Figures.
  Variable heck : rename_all -> bytes -> bytes.
  Variable net : bool.

  Lemma runtime_front : forall c ls, runtime_labels c ++ ls = with_runtime (rc_name c) ls.
  Proof. intros [rt [n|]] ls; reflexivity. Qed.
  Lemma runtime_alone : forall c, runtime_labels c = with_runtime (rc_name c) [].
  Proof. intros [rt [n|]]; reflexivity. Qed.
  Lemma worker_front : forall c w ls, worker_of c w ++ ls = of_worker (rc_name c) w ls.
  Proof. intros [rt [n|]] w ls; reflexivity. Qed.
  Lemma worker_alone : forall c w, worker_of c w = of_worker (rc_name c) w [].
  Proof. intros [rt [n|]] w; reflexivity. Qed.
  Lemma saturating : forall a b, gz (a - b) = MGauge (Z.max 0 (Z.of_N a - Z.of_N b)).
  Proof. intros a b. unfold gz. f_equal. lia. Qed.
  Definition Fig c := runtime_figure heck net (rc_runtime c) (rc_name c).
  Definition sound c n s := Fig c n (sm_suffix s) (sm_labels s) (sm_metric s).

  Lemma threads_are : forall c s, In s (thread_samples heck c) -> sound c (str "threads") s.
  Proof.
    intros c s [<-|[<-|[<-|[]]]]; unfold sound, one, thread_label; cbn [sm_suffix sm_labels sm_metric];
      rewrite ?saturating, runtime_front; constructor.
  Qed.
  Lemma queues_are : forall c s, In s (queue_samples c) -> sound c (str "queued_tasks") s.
  Proof.
    intros c s I. unfold queue_samples in I. cbv zeta in I. apply in_app_iff in I. destruct I as [[<-|[<-|[]]]|I].
    - unfold sound; cbn [one sm_suffix sm_labels sm_metric]. rewrite runtime_front. constructor.
    - unfold sound; cbn [one sm_suffix sm_labels sm_metric]. rewrite runtime_front. constructor.
    - apply in_map_iff in I. destruct I as (w & <- & W). apply in_range in W.
      unfold sound; cbn [one sm_suffix sm_labels sm_metric]. rewrite runtime_front. constructor. exact W.
  Qed.
  Lemma schedules_are : forall c s, In s (schedule_samples c) -> sound c (str "scheduled_tasks_total") s.
  Proof.
    intros c s I. unfold schedule_samples in I. cbv zeta in I. apply in_app_iff in I. destruct I as [I|[<-|[]]].
    - apply in_flat_map in I. destruct I as (w & W & [<-|[<-|[]]]); apply in_range in W;
        unfold sound; cbn [one sm_suffix sm_labels sm_metric]; rewrite worker_front; constructor; exact W.
    - unfold sound; cbn [one sm_suffix sm_labels sm_metric]. rewrite runtime_front. constructor.
  Qed.
  Lemma polls_are : forall c s, In s (all_polls c) -> sound c (str "worker_poll_time_seconds") s.
  Proof.
    intros c s I. unfold all_polls in I. apply in_flat_map in I. destruct I as (w & W & I). apply in_range in W.
    unfold poll_samples in I. apply in_app_iff in I. destruct I as [I|[<-|[<-|[]]]].
    - destruct (rt_histogram_enabled (rc_runtime c)) eqn:E; [|destruct I].
      unfold bucket_samples in I. apply in_map_iff in I. destruct I as (j & <- & J). apply in_seq in J.
      unfold sound; cbn [one sm_suffix sm_labels sm_metric]. rewrite worker_front.
      replace (S j) with (S (N.to_nat (N.of_nat j))) by lia. constructor; auto; [lia|]. apply bound_exact. reflexivity.
    - unfold sound; cbn [one sm_suffix sm_labels sm_metric]. rewrite worker_alone. constructor. exact W.
    - unfold sound; cbn [one sm_suffix sm_labels sm_metric]. rewrite worker_alone. constructor. exact W.
  Qed.
  Lemma workers_are : forall n (f : runtime -> N -> metric) c s,
    (forall w, w < rt_num_workers (rc_runtime c) -> Fig c n None (of_worker (rc_name c) w []) (f (rc_runtime c) w)) ->
    In s (per_worker f c) -> sound c n s.
  Proof.
    intros n f c s H I. unfold per_worker in I. apply in_map_iff in I. destruct I as (w & <- & W). apply in_range in W.
    unfold sound; cbn [one sm_suffix sm_labels sm_metric]. rewrite worker_alone. apply H. exact W.
  Qed.
  Lemma runtimes_are : forall n (f : runtime -> metric) c s,
    Fig c n None (with_runtime (rc_name c) []) (f (rc_runtime c)) -> In s (per_runtime f c) -> sound c n s.
  Proof.
    intros n f c s H [<-|[]]. unfold sound; cbn [one sm_suffix sm_labels sm_metric]. rewrite runtime_alone. exact H.
  Qed.

  Lemma figures_sound : forall rts f s, In f (tokio_families heck net rts) -> In s (cf_samples f) ->
    exists c, In c rts /\ sound c (cf_name f) s.
  Proof.
    intros rts f s If Is. unfold tokio_families in If. apply in_app_iff in If. unfold before_polls, after_polls in If. cbn [In] in If.
    assert (T : forall name help g, (forall c, In s (g c) -> sound c (str name) s) -> tfam rts name help g = f ->
      exists c, In c rts /\ sound c (cf_name f) s).
    { intros name help g H <-. cbn [tfam cf_samples cf_name] in *. apply in_flat_map in Is. destruct Is as (c & Ic & I).
      exists c. split; [exact Ic|]. apply H. exact I. }
    destruct If as [If|[If|If]].
    - repeat (destruct If as [If|If]; [eapply T; [|exact If]; intros c I; unfold Fig|]); [..|destruct If].
      + apply threads_are. exact I.
      + eapply runtimes_are; [|exact I]. constructor.
      + apply queues_are. exact I.
      + apply schedules_are. exact I.
      + eapply runtimes_are; [|exact I]. constructor.
      + eapply workers_are; [|exact I]. intros w W. apply RF_mean. exact W.
      + eapply workers_are; [|exact I]. intros w W. apply RF_noop. exact W.
      + eapply workers_are; [|exact I]. intros w W. apply RF_park. exact W.
      + eapply workers_are; [|exact I]. intros w W. apply RF_steal. exact W.
      + eapply workers_are; [|exact I]. intros w W. apply RF_steals. exact W.
    - unfold poll_fam in If. eapply T; [|exact If]. intros c I. apply polls_are. exact I.
    - destruct (Bool.bool_dec net true) as [En|En]; [|apply not_true_is_false in En]; rewrite En in If; [|destruct If].
      repeat (destruct If as [If|If]; [eapply T; [|exact If]; intros c I; unfold Fig|]); [..|destruct If];
        (eapply runtimes_are; [|exact I]; constructor; exact En).
  Qed.

  Ltac found := cbn [one sm_suffix sm_labels sm_metric];
    first [reflexivity|rewrite runtime_front; reflexivity|rewrite runtime_alone; reflexivity|rewrite worker_front; reflexivity|
           rewrite worker_alone; reflexivity].

  Lemma figures_complete : forall rts c n sf ls m, In c rts -> Fig c n sf ls m ->
    exists f s, In f (tokio_families heck net rts) /\ In s (cf_samples f) /\ cf_name f = n /\
      sm_suffix s = sf /\ sm_labels s = ls /\ sm_metric s = m.
  Proof.
    intros rts c n sf ls m I F.
    assert (T : forall name help g s, In (tfam rts name help g) (tokio_families heck net rts) -> In s (g c) -> str name = n ->
      sm_suffix s = sf -> sm_labels s = ls -> sm_metric s = m ->
      exists f s, In f (tokio_families heck net rts) /\ In s (cf_samples f) /\ cf_name f = n /\
      sm_suffix s = sf /\ sm_labels s = ls /\ sm_metric s = m).
    { intros name help g s If Is En Es El Em. exists (tfam rts name help g), s. repeat split; try assumption.
      cbn [tfam cf_samples]. apply in_flat_map. exists c. split; assumption. }
    assert (TW : forall name help (f : runtime -> N -> metric) w, w < rt_num_workers (rc_runtime c) ->
      In (tfam rts name help (per_worker f)) (tokio_families heck net rts) -> str name = n -> None = sf ->
      of_worker (rc_name c) w [] = ls -> f (rc_runtime c) w = m ->
      exists f s, In f (tokio_families heck net rts) /\ In s (cf_samples f) /\ cf_name f = n /\
      sm_suffix s = sf /\ sm_labels s = ls /\ sm_metric s = m).
    { intros name help f w W If En Es El Em. apply (T name help (per_worker f) (one None (worker_of c w) (f (rc_runtime c) w))); try assumption.
      - unfold per_worker. apply in_map_iff. exists w. split; [reflexivity|]. apply in_range. exact W.
      - cbn [one sm_labels]. rewrite worker_alone. exact El. }
    assert (TR : forall name help (f : runtime -> metric),
      In (tfam rts name help (per_runtime f)) (tokio_families heck net rts) -> str name = n -> None = sf ->
      with_runtime (rc_name c) [] = ls -> f (rc_runtime c) = m ->
      exists f s, In f (tokio_families heck net rts) /\ In s (cf_samples f) /\ cf_name f = n /\
      sm_suffix s = sf /\ sm_labels s = ls /\ sm_metric s = m).
    { intros name help f If En Es El Em. apply (T name help (per_runtime f) (one None (runtime_labels c) (f (rc_runtime c)))); try assumption.
      left. reflexivity. }
    assert (B : forall k f, nth_error (tokio_families heck net rts) k = Some f -> In f (tokio_families heck net rts)).
    { intros k f E. exact (nth_error_In _ _ E). }
    assert (TN : forall k name help (f : runtime -> metric), net = true ->
      nth_error (tokio_families heck true rts) k = Some (tfam rts name help (per_runtime f)) -> str name = n -> None = sf ->
      with_runtime (rc_name c) [] = ls -> f (rc_runtime c) = m ->
      exists f s, In f (tokio_families heck net rts) /\ In s (cf_samples f) /\ cf_name f = n /\
      sm_suffix s = sf /\ sm_labels s = ls /\ sm_metric s = m).
    { intros k name help f E If. apply TR with (help := help). rewrite E. exact (nth_error_In _ _ If). }
    destruct F as [ | | | | | |w W|w W|w W| | |w W|w W|w W|w W|w W|w k le W H K L|w W|w W|E|E|E].
    - eapply T; [apply (B 0%nat); reflexivity|left; reflexivity|reflexivity|reflexivity|found|reflexivity].
    - eapply T; [apply (B 0%nat); reflexivity|right; left; reflexivity|reflexivity|reflexivity|found|apply saturating].
    - eapply T; [apply (B 0%nat); reflexivity|right; right; left; reflexivity|reflexivity|reflexivity|found|reflexivity].
    - eapply TR; [apply (B 1%nat); reflexivity|reflexivity..].
    - eapply T; [apply (B 2%nat); reflexivity|left; reflexivity|reflexivity|reflexivity|found|reflexivity].
    - eapply T; [apply (B 2%nat); reflexivity|right; left; reflexivity|reflexivity|reflexivity|found|reflexivity].
    - eapply T; [apply (B 2%nat); reflexivity| |reflexivity| | |].
      { unfold queue_samples. cbv zeta. apply in_or_app. right. apply in_map_iff. exists w. split; [reflexivity|].
        apply in_range. exact W. }
      all: found.
    - eapply T; [apply (B 3%nat); reflexivity| |reflexivity| | |].
      { unfold schedule_samples. cbv zeta. apply in_or_app. left. apply in_flat_map. exists w.
        split; [apply in_range; exact W|left; reflexivity]. }
      all: found.
    - eapply T; [apply (B 3%nat); reflexivity| |reflexivity| | |].
      { unfold schedule_samples. cbv zeta. apply in_or_app. left. apply in_flat_map. exists w.
        split; [apply in_range; exact W|right; left; reflexivity]. }
      all: found.
    - eapply T; [apply (B 3%nat); reflexivity| |reflexivity| | |].
      { unfold schedule_samples. cbv zeta. apply in_or_app. right. left. reflexivity. }
      all: found.
    - eapply TR; [apply (B 4%nat); reflexivity|reflexivity..].
    - eapply TW; [exact W|apply (B 5%nat); reflexivity|reflexivity..].
    - eapply TW; [exact W|apply (B 6%nat); reflexivity|reflexivity..].
    - eapply TW; [exact W|apply (B 7%nat); reflexivity|reflexivity..].
    - eapply TW; [exact W|apply (B 8%nat); reflexivity|reflexivity..].
    - eapply TW; [exact W|apply (B 9%nat); reflexivity|reflexivity..].
    - apply bound_exact in L. subst le.
      eapply T with (s := one (Some Bucket) (worker_of c w ++ [(str "le", LFloat (histogram_le (rc_runtime c) k))])
                            (MCounter (polls (rc_runtime c) w (S (N.to_nat k)))));
        [apply (B 10%nat); reflexivity| |reflexivity| | |].
      { unfold all_polls. apply in_flat_map. exists w. split; [apply in_range; exact W|]. unfold poll_samples.
        rewrite H. apply in_or_app. left. unfold bucket_samples. apply in_map_iff. exists (N.to_nat k).
        rewrite N2Nat.id. split; [reflexivity|]. apply in_seq. lia. }
      all: found.
    - eapply T; [apply (B 10%nat); reflexivity| |reflexivity| | |].
      { unfold all_polls. apply in_flat_map. exists w. split; [apply in_range; exact W|]. unfold poll_samples.
        apply in_or_app. right. left. reflexivity. }
      all: found.
    - eapply T; [apply (B 10%nat); reflexivity| |reflexivity| | |].
      { unfold all_polls. apply in_flat_map. exists w. split; [apply in_range; exact W|]. unfold poll_samples.
        apply in_or_app. right. right. left. reflexivity. }
      all: found.
    - eapply (TN 11%nat); [exact E|reflexivity..].
    - eapply (TN 12%nat); [exact E|reflexivity..].
    - eapply (TN 13%nat); [exact E|reflexivity..].
  Qed.
End Figures.

Theorem tokio_figures : forall heck bd net rts, Forall (fun c => runtime_ok (rc_runtime c)) rts -> exists fs,
  exports (fun S e => tokio_collect heck bd net e rts) fs /\ families_are fs (runtime_families net) /\
  samples_are fs (fun n sf ls m => exists c, In c rts /\ runtime_figure heck net (rc_runtime c) (rc_name c) n sf ls m).
Proof.
  intros heck bd net rts F. exists (tokio_families heck net rts). split; [apply tokio_exports; exact F|]. split; [destruct net; reflexivity|].
  intros n sf ls m. split.
  - intros (f & s & If & Is & <- & <- & <- & <-). apply figures_sound; assumption.
  - intros (c & I & X). apply (figures_complete heck net rts c); assumption.
Qed.

(** One runtime, named any number of times. *)
Theorem runtime_figures : forall heck bd net rt names, runtime_ok rt ->
  exists fs, exports (fun S e => runtime_collect heck bd net e (fold_left with_name names (runtime_new rt))) fs /\
    families_are fs (runtime_families net) /\ samples_are fs (runtime_figure heck net rt (last (map Some names) None)).
Proof.
  intros heck bd net rt names O.
  assert (G : forall c, rc_runtime c = rt -> exists fs, exports (fun S e => runtime_collect heck bd net e c) fs /\ families_are fs (runtime_families net) /\
    samples_are fs (runtime_figure heck net rt (rc_name c))).
  { intros c E. destruct (tokio_figures heck bd net [c]) as (fs & X & FA & A).
    - constructor; [rewrite E; exact O|constructor].
    - exists fs. split; [exact X|]. split; [exact FA|]. intros n sf ls m. etransitivity; [apply A|]. rewrite <- E. split.
      + intros (c' & [<-|[]] & H). exact H.
      + intros H. exists c. split; [left; reflexivity|exact H]. }
  assert (N : forall names c, rc_runtime (fold_left with_name names c) = rc_runtime c /\
    rc_name (fold_left with_name names c) = last (map Some names) (rc_name c)).
  { clear. intros names. induction names as [|x names IH]; intros c; [split; reflexivity|].
    destruct (IH (with_name c x)) as (R & M). simpl fold_left. split; [exact R|]. rewrite M. clear.
    change (rc_name (with_name c x)) with (Some x). destruct names as [|y names]; [reflexivity|].
    simpl map. revert y. induction names as [|z names IH]; intros y; [reflexivity|exact (IH z)]. }
  destruct (N names (runtime_new rt)) as (R & M). simpl in M. rewrite <- M. apply G. exact R.
Qed.

(** Runtimes added one after the other, each under its name. *)
Theorem named_figures : forall heck bd net adds, Forall (fun a => runtime_ok (fst a)) adds -> exists fs,
  exports (fun S e => tokio_collect heck bd net e (fold_left (fun l a => named_add l (fst a) (snd a)) adds [])) fs /\ families_are fs (runtime_families net) /\
  samples_are fs (fun n sf ls m => exists a, In a adds /\ runtime_figure heck net (fst a) (Some (snd a)) n sf ls m).
Proof.
  intros heck bd net adds F.
  assert (E : fold_left (fun l a => named_add l (fst a) (snd a)) adds [] = map (fun a => with_name (runtime_new (fst a)) (snd a)) adds).
  { assert (G : forall l, fold_left (fun l a => named_add l (fst a) (snd a)) adds l = l ++ map (fun a => with_name (runtime_new (fst a)) (snd a)) adds).
    { clear F. induction adds as [|a r IH]; intros l; cbn [fold_left map]; [symmetry; apply app_nil_r|].
      rewrite IH. unfold named_add. rewrite <- app_assoc. reflexivity. }
    exact (G []). }
  rewrite E. destruct (tokio_figures heck bd net (map (fun a => with_name (runtime_new (fst a)) (snd a)) adds)) as (fs & X & FA & A).
  - apply Forall_map. exact F.
  - exists fs. split; [exact X|]. split; [exact FA|]. intros n sf ls m. etransitivity; [apply A|]. split.
    + intros (c & I & H). apply in_map_iff in I. destruct I as (a & <- & I). exists a. split; [exact I|exact H].
    + intros (a & I & H). exists (with_name (runtime_new (fst a)) (snd a)). split; [|exact H].
      apply in_map_iff. exists a. split; [reflexivity|exact I].
Qed.

(** ** Panics of the process collector *)

Lemma signed_is : forall n, n < 2 ^ 64 -> u64_as_i64 n = signed n.
Proof.
  intros n H. unfold u64_as_i64, to_i64, signed, W64. rewrite Z.mod_small by lia.
  destruct (N.ltb_spec n (2 ^ 63)); destruct (Z.ltb_spec (Z.of_N n) (2 ^ 63)); lia.
Qed.
Lemma signed_fits : forall n, n < 2 ^ 64 -> fits_i64 (signed n).
Proof. intros n H. unfold signed, fits_i64. destruct (N.ltb_spec n (2 ^ 63)); lia. Qed.
Lemma i64_fits_iff : forall z, i64_fits z = true <-> fits_i64 z.
Proof. intros z. unfold i64_fits, fits_i64. lia. Qed.

Lemma quot_range : forall a b, fits_i64 a -> b <> 0%Z -> ~ (a = - 2 ^ 63 /\ b = -1)%Z -> fits_i64 (Z.quot a b).
Proof.
  intros a b A B N. unfold fits_i64 in *.
  assert (Q : (Z.abs (Z.quot a b) <= Z.abs a)%Z) by (rewrite <- Z.quot_abs by exact B; apply Z.quot_le_upper_bound; nia).
  assert (X : Z.quot a b <> (2 ^ 63)%Z).
  { intros E. assert (Ea : (a = - 2 ^ 63)%Z) by lia. subst a.
    destruct (Z.eq_dec b (-1)) as [->|Hb]; [apply N; split; reflexivity|].
    destruct (Z.eq_dec b 1) as [->|Hb1]; [rewrite Z.quot_1_r in E; lia|].
    assert (Q2 : (Z.abs (Z.quot (- 2 ^ 63) b) <= 2 ^ 62)%Z).
    { rewrite <- Z.quot_abs by exact B. apply Z.quot_le_upper_bound; nia. }
    lia. }
  lia.
Qed.
Lemma i_div_panics : forall a b, fits_i64 a -> (i_div a b = Panic <-> no_quotient a b).
Proof.
  intros a b A. unfold i_div, no_quotient. destruct (Z.eqb_spec b 0) as [->|B]; [split; [intros _; left; reflexivity|reflexivity]|].
  destruct (i64_fits (Z.quot a b)) eqn:F.
  - split; [discriminate|]. intros [E|(-> & ->)]; [contradiction|]. vm_compute in F. discriminate.
  - split; [|reflexivity]. intros _. right.
    destruct (Z.eq_dec a (- 2 ^ 63)) as [Ea|Ea]; destruct (Z.eq_dec b (-1)) as [Eb|Eb]; try (split; assumption);
      exfalso; assert (X : i64_fits (Z.quot a b) = true) by (apply i64_fits_iff, quot_range; [exact A|exact B|lia]); congruence.
Qed.
Lemma i_div_value : forall a b v, i_div a b = Done v -> v = Z.quot a b.
Proof.
  intros a b v. unfold i_div. destruct (b =? 0)%Z; [discriminate|]. destruct (i64_fits _); [|discriminate]. intros E. inversion E. reflexivity.
Qed.

Lemma new_panics_iff : forall bd o pid, os_typed o -> (process_new bd o pid = Panic <-> new_panics bd o).
Proof.
  intros bd o pid (_ & _ & TB & TP). unfold process_new, new_panics.
  destruct (os_boot_time o) as [boot|] eqn:Eb; [|split; [discriminate|]; intros (b & p & st & H & _); discriminate].
  destruct (os_process o (os_self o)) as [[fc sl [st|]]|] eqn:Ep;
    [|split; [discriminate|]; intros (b & p & st & _ & H & H2 & _); inversion H; subst p; discriminate
     |split; [discriminate|]; intros (b & p & st & _ & H & _); discriminate].
  destruct (TP _ _ st Ep eq_refl) as (_ & _ & _ & HS). specialize (TB boot eq_refl).
  rewrite (signed_is _ HS), (signed_is _ TB).
  assert (D := i_div_panics (signed (ps_starttime st)) (os_clk_tck o) (signed_fits _ HS)).
  assert (V := i_div_value (signed (ps_starttime st)) (os_clk_tck o)).
  destruct (i_div _ _) as [v|]; cbn [obind].
  - specialize (V v eq_refl). subst v.
    assert (A : i_add bd (Z.quot (signed (ps_starttime st)) (os_clk_tck o)) (signed boot) = Panic <->
                bd = Debug /\ ~ fits_i64 (Z.quot (signed (ps_starttime st)) (os_clk_tck o) + signed boot)).
    { unfold i_add. destruct bd; [|split; [discriminate|intros (X & _); discriminate]].
      rewrite <- i64_fits_iff. destruct (i64_fits _); split; try discriminate; intros H.
      - destruct H as (_ & H). contradiction H. reflexivity.
      - split; [reflexivity|discriminate].
      - reflexivity. }
    destruct (i_add bd _ _) as [w|]; cbn [obind].
    + split; [discriminate|]. intros (b & p & st' & E1 & E2 & E3 & H). inversion E1. inversion E2. subst b p. inversion E3. subst st'.
      destruct H as [H|H]; [apply D in H; discriminate|apply A in H; discriminate].
    + split; [|reflexivity]. intros _. exists boot, {| p_fd_count := fc; p_soft_limit := sl; p_stat := Some st |}, st.
      repeat split. right. apply A. reflexivity.
  - split; [|reflexivity]. intros _. exists boot, {| p_fd_count := fc; p_soft_limit := sl; p_stat := Some st |}, st.
    repeat split. left. apply D. reflexivity.
Qed.

Section Accepting.
  Context {S : Type} (e : encoder S) (A : accepting e).

  Definition ends (a : io S) (r : result) : Prop := forall s, snd (a s) = r.
  Lemma ends_ok : ends ret_ok ROk.
  Proof. intros s. reflexivity. Qed.
  Lemma ends_then : forall a b r, ends a ROk -> ends b r -> ends (a ;;? b) r.
  Proof.
    intros a b r HA HB s. unfold bindr. specialize (HA s). destruct (a s) as [s' x]. cbn [snd] in HA. subst x. apply HB.
  Qed.
  Lemma ends_panic : forall a b, ends a RPanic -> ends (a ;;? b) RPanic.
  Proof. intros a b H s. unfold bindr. specialize (H s). destruct (a s) as [s' x]. cbn [snd] in H. subst x. reflexivity. Qed.
  Lemma ends_figure : forall n h v, ends (write_figure e n h v) (match v with Done _ => ROk | Panic => RPanic end).
  Proof.
    intros n h v. unfold write_figure. apply ends_then; [intros s; apply A|]. unfold with_value. intros s.
    destruct v; [apply A|reflexivity].
  Qed.

  Lemma collect_panics_iff : forall bd o c, os_typed o -> forall s,
    snd (process_collect bd o c e s) <> RErr /\
    (snd (process_collect bd o c e s) = RPanic <-> exists p, os_process o (pc_pid c) = Some p /\ must_panic bd o p).
  Proof.
    intros bd o c (TC & TG & TB & TP).
    assert (G : exists r, ends (process_collect bd o c e) r /\ r <> RErr /\
      (r = RPanic <-> exists p, os_process o (pc_pid c) = Some p /\ must_panic bd o p)).
    { unfold process_collect. destruct (os_process o (pc_pid c)) as [p|] eqn:Ep.
      2:{ exists ROk. split; [apply ends_ok|]. split; [discriminate|]. split; [discriminate|]. intros (p & H & _). discriminate. }
      assert (F1 : ends match p_fd_count p with
        | Some fds => write_figure e (str "open_fds") (str "Number of open file descriptors.") (Done (u64_as_i64 fds))
        | None => ret_ok end ROk).
      { destruct (p_fd_count p); [apply ends_figure|apply ends_ok]. }
      assert (F2 : ends match p_soft_limit p with
        | Some (LimitValue max) =>
          write_figure e (str "max_fds") (str "Maximum number of open file descriptors.") (Done (u64_as_i64 max))
        | _ => ret_ok end ROk).
      { destruct (p_soft_limit p) as [[|]|]; [apply ends_ok|apply ends_figure|apply ends_ok]. }
      assert (F4 : ends match pc_start_time c with
        | Some start =>
          write_figure e (str "start_time_seconds") (str "Start time of the process since unix epoch in seconds.") (Done start)
        | None => ret_ok end ROk).
      { destruct (pc_start_time c); [apply ends_figure|apply ends_ok]. }
      destruct (p_stat p) as [st|] eqn:Es.
      2:{ exists ROk. split; [repeat (apply ends_then; [assumption || apply ends_ok|]); exact F4|]. split; [discriminate|].
          split; [discriminate|]. intros (q & Q & (st & E & _)). inversion Q. subst q. congruence. }
      destruct (TP _ _ st Ep Es) as (HR & HU & HS & _).
      assert (MU : i_mul bd (u64_as_i64 (ps_rss st)) (os_pagesize o) = Panic <->
        bd = Debug /\ ~ fits_i64 (signed (ps_rss st) * os_pagesize o)).
      { rewrite (signed_is _ HR). unfold i_mul. destruct bd; [|split; [discriminate|intros (X & _); discriminate]].
        rewrite <- i64_fits_iff. destruct (i64_fits _); split; try discriminate; intros H.
        - destruct H as (_ & H). contradiction H. reflexivity.
        - split; [reflexivity|discriminate].
        - reflexivity. }
      assert (CP : (let! ticks := u_add bd (ps_utime st) (ps_stime st) in i_div (u64_as_i64 ticks) (os_clk_tck o)) = Panic <->
        (bd = Debug /\ ~ fits_u64 (ps_utime st + ps_stime st)) \/
        no_quotient (signed ((ps_utime st + ps_stime st) mod 2 ^ 64)) (os_clk_tck o)).
      { assert (M : (ps_utime st + ps_stime st) mod 2 ^ 64 < 2 ^ 64) by (apply N.mod_lt; discriminate).
        assert (D := i_div_panics _ (os_clk_tck o) (signed_fits _ M)). unfold u_add.
        destruct bd.
        - destruct (N.ltb_spec (ps_utime st + ps_stime st) W64) as [L|L]; cbn [obind].
          + change W64 with (2 ^ 64) in L. rewrite (N.mod_small _ _ L) in D |- *. rewrite (signed_is _ L), D. split; [right; assumption|].
            intros [(_ & H)|H]; [contradiction H; exact L|exact H].
          + split; [|reflexivity]. intros _. left. split; [reflexivity|]. unfold fits_u64, W64 in *. lia.
        - cbn [obind]. change W64 with (2 ^ 64). rewrite (signed_is _ M), D. split; [right; assumption|].
          intros [(H & _)|H]; [discriminate|exact H]. }
      assert (W := ends_figure (str "resident_memory_bytes") (str "Resident memory size in bytes.")
        (i_mul bd (u64_as_i64 (ps_rss st)) (os_pagesize o))).
      assert (X := ends_figure (str "cpu_seconds_total") (str "Total user and system CPU time spent in seconds.")
        (let! ticks := u_add bd (ps_utime st) (ps_stime st) in i_div (u64_as_i64 ticks) (os_clk_tck o))).
      assert (MP : must_panic bd o p <-> i_mul bd (u64_as_i64 (ps_rss st)) (os_pagesize o) = Panic \/
        (let! ticks := u_add bd (ps_utime st) (ps_stime st) in i_div (u64_as_i64 ticks) (os_clk_tck o)) = Panic).
      { rewrite MU, CP. unfold must_panic. split.
        - intros (st' & E & H). rewrite Es in E. inversion E. subst st'. tauto.
        - intros H. exists st. split; [exact Es|]. tauto. }
      assert (MQ : (exists q, Some p = Some q /\ must_panic bd o q) <-> must_panic bd o p).
      { split; [intros (q & Q & H); inversion Q; exact H|intros H; exists p; split; [reflexivity|exact H]]. }
      assert (MR := iff_trans MQ MP). clear MQ MP MU CP.
      match goal with |- exists r, ends ?a r /\ _ => enough (En : exists r, ends a r /\ r <> RErr /\ (r = RPanic <->
        i_mul bd (u64_as_i64 (ps_rss st)) (os_pagesize o) = Panic \/
        (let! ticks := u_add bd (ps_utime st) (ps_stime st) in i_div (u64_as_i64 ticks) (os_clk_tck o)) = Panic)) end.
      { destruct En as (r & E1 & E2 & E3). exists r. split; [exact E1|]. split; [exact E2|]. rewrite E3. symmetry. exact MR. }
      clear MR.
      destruct (i_mul bd (u64_as_i64 (ps_rss st)) (os_pagesize o)) as [m|].
      2:{ exists RPanic. split; [|split; [discriminate|split; [left; reflexivity|reflexivity]]].
          apply ends_then; [exact F1|]. apply ends_then; [exact F2|]. apply ends_panic.
          apply ends_then; [apply ends_figure|]. apply ends_panic. exact W. }
      destruct (obind (u_add bd (ps_utime st) (ps_stime st)) _) as [t|].
      2:{ exists RPanic. split; [|split; [discriminate|split; [right; reflexivity|reflexivity]]].
          apply ends_then; [exact F1|]. apply ends_then; [exact F2|]. apply ends_panic.
          apply ends_then; [apply ends_figure|]. apply ends_then; [exact W|]. apply ends_panic. exact X. }
      exists ROk. split; [|split; [discriminate|split; [discriminate|intros [H|H]; discriminate]]].
      apply ends_then; [exact F1|]. apply ends_then; [exact F2|]. apply ends_then; [|exact F4].
      apply ends_then; [apply ends_figure|]. apply ends_then; [exact W|]. apply ends_then; [exact X|]. apply ends_figure. }
    destruct G as (r & E & N & I). intros s. rewrite (E s). split; assumption.
  Qed.
End Accepting.
