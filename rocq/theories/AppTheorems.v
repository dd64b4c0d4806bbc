(** Runs of the example server (C67). *)
From Coq Require Import String List NArith ZArith Bool Lia Permutation.
From Verif Require Import Base BaseFacts Writer NameModel NameSpec NameProofs LabelModel LabelSpec LabelProofs GroupProofs LawProofs VecModel VecSpec VecProofs VecTheorems
  FloatModel FloatFacts FloatArith EncoderModel FamilyModel TextModel TextSpec EncoderSpec EncoderProofs TrimProofs TextTheorems MetricModel MetricSpec MetricProofs MetricTheorems HistTheorems
  ScrapeSpec ScrapeProofs ScrapeTheorems ScrapeVec CallModel EndSpec EndProofs EndTheorems AppModel AppSpec AppVec AppLives AppProofs.
Import ListNotations.
Local Open Scope N_scope.

(** ** The thresholds *)

Lemma thresholds_made : forall powi, powi_exact powi -> app_thresholds powi = Done doubling.
Proof.
  intros powi H. unfold app_thresholds, exponential_buckets.
  replace (f_gt f_tenth_milli 0) with true by (vm_compute; reflexivity). replace (f_gt f_2_0 f_one) with true by (vm_compute; reflexivity).
  f_equal. unfold doubling. apply map_ext_in. intros i I. apply in_seq in I.
  replace (to_i32 (Z.of_nat i)) with (Z.of_nat i); [change f_2_0 with (f_of_Z 2); rewrite H by lia|];
    (assert (X : In i (seq 0 16)) by (apply in_seq; lia); cbn in X;
  repeat (destruct X as [<-|X]; [vm_compute; reflexivity|]); destruct X).
Qed.
Lemma doubling_sorted : forall bd, with_buckets bd doubling = Done doubling.
Proof. intros []; vm_compute; reflexivity. Qed.
Lemma doubling_bits : Forall (fun t => t < 2 ^ 64) doubling.
Proof. unfold doubling. cbn [seq map]. repeat constructor; vm_compute; reflexivity. Qed.

Lemma lives_methods : forall evs ls, lives evs ls -> Forall (fun q : served => is_method (snd (fst q))) ls.
Proof.
  intros evs ls H.
  assert (PUT : forall l i p m x y, Forall (fun q : served => is_method (snd (fst q))) l -> nth_error l i = Some (p, m, x) ->
    Forall (fun q : served => is_method (snd (fst q))) (put i (p, m, y) l)).
  { induction l as [|q l IH]; intros [|i] p m x y F E; try discriminate; cbn [put nth_error] in *; inversion F; subst; constructor; auto.
    - injection E as ->. assumption.
    - eapply IH; eassumption. }
  induction H; eauto.
  apply Forall_app. split; [assumption|]. constructor; [|constructor]. cbn [fst snd]. unfold method_label, is_method.
  destruct (list_eq_dec _ _ _); [|destruct (list_eq_dec _ _ _)]; cbn; auto.
Qed.
Lemma lives_length : forall evs ls, lives evs ls -> (length ls <= length evs)%nat.
Proof. intros evs ls H. induction H; rewrite ?app_length, ?put_length; cbn [length] in *; lia. Qed.
Lemma number_le : forall P ls, number P ls <= N.of_nat (length ls).
Proof. intros P ls. unfold number. induction ls as [|x ls IH]; cbn [filter length]; [lia|]. destruct (P x); cbn [length]; lia. Qed.

Lemma method_from_label : forall m, method_from m = method_label m.
Proof.
  intros m. unfold method_from, method_label.
  destruct (list_eq_dec N.eq_dec m (str "GET")) as [->|N1]; [reflexivity|].
  destruct (beqb m (str "GET")) eqn:E; [apply beqb_spec in E; contradiction|].
  destruct (list_eq_dec N.eq_dec m (str "POST")) as [->|N2]; [reflexivity|].
  destruct (beqb m (str "POST")) eqn:E'; [apply beqb_spec in E'; contradiction|]. reflexivity.
Qed.

Lemma lives_instants : forall evs ls, lives evs ls -> Forall (fun q : served => forall t0 t1, span (snd q) = Some (t0, t1) -> t1 < 2 ^ 64) ls.
Proof.
  intros evs ls H.
  assert (PUT : forall l i (x : served), Forall (fun q : served => forall t0 t1, span (snd q) = Some (t0, t1) -> t1 < 2 ^ 64) l ->
    (forall t0 t1, span (snd x) = Some (t0, t1) -> t1 < 2 ^ 64) -> Forall (fun q : served => forall t0 t1, span (snd q) = Some (t0, t1) -> t1 < 2 ^ 64) (put i x l)).
  { induction l as [|q l IH]; intros [|i] x F E; cbn [put]; inversion F; subst; constructor; auto. }
  induction H; try (apply PUT; [assumption|]); cbn [snd span].
  - constructor.
  - apply Forall_app. split; [assumption|]. constructor; [|constructor]. cbn. discriminate.
  - discriminate.
  - intros a b E. injection E as _ <-. assumption.
  - intros a b E. rewrite Forall_forall in IHlives. exact (IHlives _ (nth_error_In _ _ H0) a b E).
  - intros a b E. injection E as _ <-. assumption.
  - assumption.
Qed.
Lemma times_no_nan : forall p m evs ls, lives evs ls -> no_nan (times p m evs ls).
Proof.
  intros p m evs ls H x I. rewrite <- spans_times in I. unfold given in I. apply in_map_iff in I. destruct I as (q & <- & I). apply filter_In in I as [I _].
  apply in_flat_map in I. destruct I as (e & _ & I). destruct (ends e) as [r|]; [|destruct I]. unfold timing in I.
  destruct (nth_error ls r) as [[[p' m'] x]|] eqn:E; [|destruct I]. destruct (span x) as [[t0 t1]|] eqn:SX; [|destruct I].
  destruct I as [<-|[]]. cbn [snd]. pose proof (lives_instants _ _ H) as F. rewrite Forall_forall in F. specialize (F _ (nth_error_In _ _ E) _ _ SX).
  apply duration_secs_sane; cbn [d_secs d_nanos].
  - eapply N.le_lt_trans; [|exact F]. etransitivity; [apply N.div_le_upper_bound with (q := t1 - t0); [discriminate|]|lia].
    change (10 ^ 9) with 1000000000. lia.
  - apply N.mod_lt. discriminate.
Qed.
Lemma times_length : forall p m evs ls, (length (times p m evs ls) <= length evs)%nat.
Proof.
  intros p m evs ls. unfold times. induction evs as [|e evs IH]; [reflexivity|]. cbn [flat_map length]. rewrite app_length.
  assert (X : forall r, (length (time_of p m ls r) <= 1)%nat).
  { intros r. unfold time_of. destruct (nth_error ls r) as [[[p' m'] []]|]; try (cbn; lia); destruct (same_bytes p' p && same_bytes m' m); cbn; lia. }
  destruct e; cbn [length] in *; try lia; specialize (X r); lia.
Qed.

(** ** A family of a scrape *)

Section Block.
  Variable heck : rename_all -> bytes -> bytes.
  Variable ryu : f64 -> bytes.
  Context {bd : build} {A M : Type}.
  Notation L := (derived_lgset bd).
  Variable W : world L M.
  Hypothesis WOK : world_ok W.
  Variable step : M -> A -> M.
  Variables s0 s1 : group_set.
  Hypothesis LAB : Forall (fun f => valid_label_name (field_label f)) s1.
  Variable base : bytes.
  Hypothesis NB : valid_metric_name base.
  Variables (k : kind) (read : M -> metric).

  Lemma given_in : forall g (l : list (group_val * A)), given g l <> [] <-> In g (map fst l).
  Proof. intros g l. rewrite <- (made_some (w_default W) step). unfold made. destruct (given g l); split; intros H; try discriminate; contradiction H; reflexivity. Qed.

  Lemma block : forall {T} (key : T -> group_val) (keys : T -> Prop) (lines : T -> list item -> Prop) v ids gs l,
    holds W step s0 v ids gs l ->
    (forall t t', key t = key t' -> t = t') ->
    (forall g, In g (map fst l) -> exists t, g = key t) -> (forall t, keys t <-> In (key t) (map fst l)) ->
    (forall t, keys t -> metric_in_range (read (fold_left step (given (key t) l) (w_default W)))) ->
    (forall t part, keys t -> metric_lines ryu [] base (group_visit heck s1 (key t)) (read (fold_left step (given (key t) l) (w_default W))) part -> lines t part) ->
    let evs := family_events [] base (vec_family L M (w_iter W) (group_visit heck s1) k read v) in
    Forall event_ok evs /\
    forall parts, Forall2 (event_lines ryu) evs parts ->
      exists ts ps, concat parts = Type_ base (kind_word k) :: concat ps /\ NoDup ts /\ (forall t, In t ts <-> keys t) /\ Forall2 lines ts ps.
  Proof.
    intros T key keys lines v ids gs l H INJ SUR KEYS RG LI.
    destruct (holds_samples W WOK step s0 heck v ids gs l H) as (smp & E & ND & IN & SH).
    assert (EL : exists ts, map fst smp = map key ts /\ Forall keys ts).
    { assert (X : forall q, In q smp -> In (fst q) (map fst l)).
      { intros [g m] I. apply IN in I. apply (made_some (w_default W) step). cbn [fst]. rewrite I. discriminate. }
      clear - X SUR KEYS. induction smp as [|q smp IH]; [exists []; split; [reflexivity|constructor]|].
      destruct IH as (ts & EQ & F); [intros q' I; apply X; now right|].
      destruct (SUR _ (X q (or_introl eq_refl))) as (t & ET). exists (t :: ts). split; [exact (f_equal2 cons ET EQ)|]. constructor; [|exact F].
      apply KEYS. rewrite <- ET. apply X. now left. }
    destruct EL as (ts & EL & FK).
    assert (VAL : forall g m, In (g, m) smp -> m = fold_left step (given g l) (w_default W)).
    { intros g m I. apply IN in I. unfold made in I. destruct (given g l); [discriminate|]. now injection I. }
    unfold vec_family. rewrite E. cbn [obind family_events]. rewrite map_map. split.
    - constructor; [constructor; [exact NB|constructor]|]. apply Forall_forall. intros e I. apply in_map_iff in I. destruct I as ([g m] & <- & I). cbn [event_ok fst snd].
      split; [constructor; [exact NB|constructor]|]. split; [unfold labels_valid, group_visit; apply Forall_map; exact LAB|].
      rewrite (VAL g m I). assert (J : In g (map key ts)) by (rewrite <- EL; apply in_map_iff; now exists (g, m)).
      apply in_map_iff in J. destruct J as (t & <- & J). apply RG. rewrite Forall_forall in FK. now apply FK.
    - intros parts F. inversion F as [|? i2 ? ps EQ PS]; subst. cbn [event_lines] in EQ. subst i2.
      exists ts, ps. split; [reflexivity|]. split; [|split].
      + apply (NoDup_map_inv key). rewrite <- EL. exact ND.
      + intros t. split; [intros I; rewrite Forall_forall in FK; now apply FK|].
        intros K. assert (NN : made (w_default W) step (given (key t) l) <> None) by (apply made_some, KEYS, K).
        destruct (made (w_default W) step (given (key t) l)) as [m|] eqn:EM; [|contradiction]. apply IN in EM.
        assert (J : In (key t) (map key ts)) by (rewrite <- EL; apply in_map_iff; now exists (key t, m)).
        apply in_map_iff in J. destruct J as (t' & EK & J). apply INJ in EK. now subst.
      + assert (X : forall sm tt pp, map fst sm = map key tt -> Forall keys tt -> incl sm smp ->
          Forall2 (event_lines ryu) (map (fun q => EvSample [] base (group_visit heck s1 (fst q)) (read (snd q))) sm) pp -> Forall2 lines tt pp).
        { clear - LI VAL. induction sm as [|[g m] sm IH]; intros [|t tt] pp EQ FK SUB PS; try discriminate; inversion PS; subst; [constructor|].
          cbn [map fst] in EQ. injection EQ as -> EQ. inversion FK; subst. constructor.
          - apply LI; [assumption|]. rewrite <- (VAL (key t) m) by (apply SUB; now left). assumption.
          - apply IH; auto. intros q I. apply SUB. now right. }
        exact (X smp ts ps EL FK (incl_refl _) PS).
  Qed.
End Block.

Lemma ones : forall g (l : list (group_val * N)), Forall (fun q => snd q = 1) l -> (In g (map fst l) <-> 0 < fold_right N.add 0 (given g l)).
Proof.
  intros g l F. induction F as [|[h x] l O F IH]; [cbn; split; [intros []|lia]|]. cbn [snd] in O. subst x.
  rewrite given_cons, sum_app. cbn [map fst snd In]. rewrite IH. destruct (group_val_eqb h g) eqn:E.
  - apply group_val_eqb_spec in E. subst. cbn [fold_right]. split; [lia|auto].
  - cbn [fold_right]. split; [intros [->|H]; [|lia]|right; lia]. rewrite (proj2 (group_val_eqb_spec g g) eq_refl) in E. discriminate.
Qed.

(** What the families are about *)
Lemma arrivals_ones : forall ls, Forall (fun q => snd q = 1) (arrivals ls).
Proof. intros ls. apply Forall_map, Forall_forall. reflexivity. Qed.
Lemma responses_ones : forall evs ls, Forall (fun q => snd q = 1) (responses evs ls).
Proof.
  intros evs ls. apply Forall_forall. intros q I. apply in_flat_map in I. destruct I as (e & _ & I).
  destruct e; try destruct I. destruct (nth_error ls r) as [[[p m] x]|]; [|destruct I]. destruct I as [<-|[]]. reflexivity.
Qed.
Lemma arrivals_keys : forall evs ls g, lives evs ls -> In g (map fst (arrivals ls)) -> exists p m, g = request_group p m /\ is_method m.
Proof.
  intros evs ls g H I. unfold arrivals in I. rewrite map_map in I. apply in_map_iff in I. destruct I as (q & <- & I).
  pose proof (lives_methods _ _ H) as F. rewrite Forall_forall in F. exists (fst (fst q)), (snd (fst q)). split; [reflexivity|now apply F].
Qed.
Lemma spans_keys : forall evs ls g, lives evs ls -> In g (map fst (spans evs ls)) -> exists p m, g = request_group p m /\ is_method m.
Proof.
  intros evs ls g H I. apply in_map_iff in I. destruct I as (q & <- & I). apply in_flat_map in I. destruct I as (e & _ & I).
  destruct (ends e) as [r|]; [|destruct I]. unfold timing in I. destruct (nth_error ls r) as [[[p m] x]|] eqn:E; [|destruct I].
  destruct (span x) as [[t0 t1]|]; [|destruct I]. destruct I as [<-|[]]. exists p, m. split; [reflexivity|].
  pose proof (lives_methods _ _ H) as F. rewrite Forall_forall in F. exact (F _ (nth_error_In _ _ E)).
Qed.
Lemma lives_codes : forall evs ls, lives evs ls -> forall r c, In (Respond r c) evs -> 100 <= c <= 999.
Proof.
  intros evs ls H. induction H; intros i c I; [destruct I|..]; apply in_app_iff in I as [I|[E|[]]]; try (now eapply IHlives; eassumption); try discriminate.
  now injection E as -> ->.
Qed.
Lemma responses_keys : forall evs ls g, lives evs ls -> In g (map fst (responses evs ls)) ->
  exists p m c, g = response_group p m c /\ is_method m /\ 100 <= c <= 999.
Proof.
  intros evs ls g H I. apply in_map_iff in I. destruct I as (q & <- & I). apply in_flat_map in I. destruct I as (e & IE & I).
  destruct e as [| | |r c| |]; try destruct I. destruct (nth_error ls r) as [[[p m] x]|] eqn:E; [|destruct I]. destruct I as [<-|[]].
  exists p, m, c. split; [reflexivity|]. split; [|exact (lives_codes _ _ H r c IE)].
  pose proof (lives_methods _ _ H) as F. rewrite Forall_forall in F. exact (F _ (nth_error_In _ _ E)).
Qed.

Lemma visit_method : forall heck m, is_method m -> value_visit heck (SStatic method_enum) m = LStr (heck Snake m).
Proof. intros heck m [<-|[<-|[<-|[]]]]; reflexivity. Qed.
Lemma visit_request : forall heck s p m, (forall v, value_visit heck s v = LStr v) -> is_method m ->
  group_visit heck (requests_set s) (request_group p m) = request_labels heck p m.
Proof.
  intros heck s p m H IM. unfold group_visit, requests_set. cbn [map path_field method_field f_set]. rewrite H.
  change (get_field (request_group p m) method_field) with m. rewrite (visit_method heck _ IM). reflexivity.
Qed.
Lemma visit_response : forall heck s p m c, (forall v, value_visit heck s v = LStr v) -> is_method m -> 100 <= c <= 999 ->
  group_visit heck (responses_set s) (response_group p m c) = response_labels heck p m c.
Proof.
  intros heck s p m c H IM CB. unfold group_visit, responses_set. cbn [map path_field method_field status_field f_set]. rewrite H.
  change (get_field (response_group p m c) method_field) with m. rewrite (visit_method heck _ IM).
  change (get_field (response_group p m c) status_field) with (status_value c). unfold value_visit.
  destruct (status_represented Debug heck) as (_ & V & _). rewrite (proj2 (V c CB)). reflexivity.
Qed.

Lemma request_labels_valid : forall s, Forall (fun f => valid_label_name (field_label f)) (requests_set s).
Proof. intros s. repeat (apply Forall_cons || apply Forall_nil); apply valid_label_nameb_spec; reflexivity. Qed.
Lemma response_labels_valid : forall s, Forall (fun f => valid_label_name (field_label f)) (responses_set s).
Proof. intros s. repeat (apply Forall_cons || apply Forall_nil); apply valid_label_nameb_spec; reflexivity. Qed.

Section Server.
  Variable bd : build.
  Variable sv : std_version.
  Variable heck : rename_all -> bytes -> bytes.
  Variable ryu : f64 -> bytes.
  Hypothesis RY : float_text_ok ryu.
  Notation L := (derived_lgset bd).
  Variables (WQ WP : world L N) (WD : world L hist).
  Hypotheses (OQ : world_ok WQ) (OP : world_ok WP) (OD : world_ok WD).
  Hypotheses (DQ : w_default WQ = 0) (DP : w_default WP = 0) (DD : w_default WD = hist_new 16).
  Variable acc : list bytes -> bytes -> bool.
  Variable known : list bytes.
  Hypothesis NK : NoDup known.
  Notation P l := (SInterner acc l).
  Notation SQ := (requests_set (P known)).
  Notation SP := (responses_set (P known)).
  Notation SERVER := (server bd).
  Notation HQ := (@holds bd N N WQ N.add SQ).
  Notation HP := (@holds bd N N WP N.add SP).
  Notation HD := (@holds bd f64 hist WD (observe_step sv doubling) SQ).

  Definition stage_ok (ids : list (label_id L)) (gs : list group_val) (r : request bd) (q : served) : Prop :=
    rq_path bd r = fst (fst q) /\ rq_method bd r = snd (fst q) /\
    match rq_stage bd r, snd q with
    | Counted _, Begun => True
    | Waiting _ t, Running t0 => exists i id, t = timer_start _ id t0 /\ nth_error ids i = Some id /\ nth_error gs i = Some (request_group (fst (fst q)) (snd (fst q)))
    | Timed _, Ended _ _ => True
    | Over _, Answered _ _ _ | Over _, Dropped _ _ => True
    | _, _ => False
    end.

  Record inv (evs : list app_event) (ls : list served) (a : SERVER) : Prop := {
    in_paths : exists l, ap_paths bd a = P l /\ NoDup l /\ (forall x, In x l <-> In x known \/ In x (map (fun q : served => fst (fst q)) ls));
    in_sq : exists l, mv_set (ap_requests bd a) = requests_set l;
    in_sp : exists l, mv_set (ap_responses bd a) = responses_set l;
    in_sd : exists l, mv_set (ap_durations bd a) = requests_set l;
    in_q : exists ids gs, HQ (load bd (ap_paths bd a) (ap_requests bd a)) ids gs (arrivals ls);
    in_p : exists ids gs, HP (load bd (ap_paths bd a) (ap_responses bd a)) ids gs (responses evs ls);
    in_d : exists ids gs, HD (load bd (ap_paths bd a) (ap_durations bd a)) ids gs (spans evs ls) /\ Forall2 (stage_ok ids gs) (ap_active bd a) ls;
    in_ts : ap_thresholds bd a = doubling;
    in_enc : same (ap_encoder bd a) buffered_new }.

  (** ** Sharing the interner *)

  Lemma load_requests : forall {M} p (v : metric_vec L M) l, mv_set v = requests_set l ->
    load bd p v = {| mv_metrics := mv_metrics v; mv_set := (requests_set p : lg_state L) |}.
  Proof. intros M p v l E. unfold load. rewrite E. reflexivity. Qed.
  Lemma load_responses : forall {M} p (v : metric_vec L M) l, mv_set v = responses_set l ->
    load bd p v = {| mv_metrics := mv_metrics v; mv_set := (responses_set p : lg_state L) |}.
  Proof. intros M p v l E. unfold load. rewrite E. reflexivity. Qed.
  Lemma reload_requests : forall {M} p (v : metric_vec L M), mv_set v = requests_set p -> load bd p v = v.
  Proof. intros M p v E. rewrite (load_requests p v p E). destruct v as [m s]. cbn in *. now subst. Qed.
  Lemma reload_responses : forall {M} p (v : metric_vec L M), mv_set v = responses_set p -> load bd p v = v.
  Proof. intros M p v E. rewrite (load_responses p v p E). destruct v as [m s]. cbn in *. now subst. Qed.
  Lemma store_requests : forall {M} p p' (v : metric_vec L M), mv_set v = requests_set p -> store bd v p' = p.
  Proof. intros M p p' v E. unfold store. rewrite E. reflexivity. Qed.
  Lemma store_responses : forall {M} p p' (v : metric_vec L M), mv_set v = responses_set p -> store bd v p' = p.
  Proof. intros M p p' v E. unfold store. rewrite E. reflexivity. Qed.

  Lemma grow_q : forall {A M} (W : world L M) (step : M -> A -> M) (v : metric_vec L M) ids gs l s t k0, mv_set v = requests_set k0 -> NoDup (l ++ t) ->
    holds W step SQ (load bd (P l) v) ids gs s -> holds W step SQ (load bd (P (l ++ t)) v) ids gs s.
  Proof.
    intros A M W step v ids gs l s t k0 E N H. rewrite (load_requests (P (l ++ t)) v k0 E), (load_requests (P l) v k0 E) in *.
    exact (holds_ext W step SQ _ ids gs s (requests_set (P (l ++ t))) H (requests_ext acc l t N)).
  Qed.
  Lemma grow_p : forall (v : metric_vec L N) ids gs l s t k0, mv_set v = responses_set k0 -> NoDup (l ++ t) ->
    HP (load bd (P l) v) ids gs s -> HP (load bd (P (l ++ t)) v) ids gs s.
  Proof.
    intros v ids gs l s t k0 E N H. rewrite (load_responses (P (l ++ t)) v k0 E), (load_responses (P l) v k0 E) in *.
    exact (holds_ext WP N.add SP _ ids gs s (responses_set (P (l ++ t))) H (responses_ext' acc l t N)).
  Qed.

  (** ** Starting *)

  Lemma inv_new : forall powi p a, powi_exact powi -> 1 <= p -> p * 4 <= 2 ^ 63 -> app_new bd WQ WP WD powi p (P known) = Done a -> inv [] [] a.
  Proof.
    intros powi p a PW P1 P2 E. unfold app_new in E.
    destruct (vec_new (w_bd WQ) L N p SQ) as [q|] eqn:E1; [|discriminate]. cbn [obind] in E.
    destruct (vec_new (w_bd WP) L N p SP) as [r|] eqn:E2; [|discriminate]. cbn [obind] in E.
    rewrite (thresholds_made powi PW) in E. cbn [obind] in E.
    destruct (vec_new (w_bd WD) L hist p SQ) as [d|] eqn:E3; [|discriminate]. cbn [obind] in E. injection E as <-.
    assert (SET : forall M (s : lg_state L) b (v : metric_vec L M), vec_new b L M p s = Done v -> mv_set v = s).
    { clear. intros M s b v E. unfold vec_new in E. destruct (lg_cardinality L s) as [c|].
      - destruct (c <=? DEFAULT_MAX_DENSE); [injection E as <-; reflexivity|]. destruct (sharded_new _ _ _ _); [|discriminate]. injection E as <-. reflexivity.
      - destruct (sharded_new _ _ _ _); [|discriminate]. injection E as <-. reflexivity. }
    pose proof (SET _ _ _ _ E1) as S1. pose proof (SET _ _ _ _ E2) as S2. pose proof (SET _ _ _ _ E3) as S3.
    constructor; cbn [ap_paths ap_requests ap_responses ap_durations ap_thresholds ap_encoder ap_active]; eauto.
    - exists known. split; [reflexivity|]. split; [exact NK|]. cbn. intuition.
    - exists [], []. rewrite (reload_requests _ _ S1). apply (holds_new WQ OQ N.add SQ p q); [|now apply requests_sound]. unfold constructed. auto.
    - exists [], []. rewrite (reload_responses _ _ S2). apply (holds_new WP OP N.add SP p r); [|now apply responses_sound]. unfold constructed. auto.
    - exists [], []. rewrite (reload_requests _ _ S3). split; [|constructor]. apply (holds_new WD OD _ SQ p d); [|now apply requests_sound]. unfold constructed. auto.
    - repeat split; intros ?; reflexivity.
  Qed.

  Theorem server_starts : forall powi p, powi_exact powi -> 1 <= p -> p * 4 <= 2 ^ 63 -> exists a, app_new bd WQ WP WD powi p (P known) = Done a.
  Proof.
    intros powi p PW P1 P2. unfold app_new. rewrite (thresholds_made powi PW).
    assert (SP' : forall M b (s : lg_state L), group_cardinality s = None -> exists v, vec_new b L M p s = Done v).
    { intros M b s C. unfold vec_new. cbn [lg_cardinality derived_lgset]. rewrite C.
      destruct (sparse_init b (M := M) (L := static_lgset) (fun _ => 0) (fun _ _ => true) (fun _ => True) (fun _ _ => True) (fun _ => eq_refl) p method_enum I P1 P2) as (sh & E & _).
      assert (X : exists sh', sharded_new b L M p = Done sh').
      { unfold sharded_new in *. destruct (default_shard_amount b 64 p); [|discriminate]. cbn [obind]. eauto. }
      destruct X as (sh' & ->). cbn [obind]. eauto. }
    destruct (SP' N (w_bd WQ) SQ eq_refl) as (q & ->). destruct (SP' N (w_bd WP) SP eq_refl) as (r & ->). destruct (SP' hist (w_bd WD) SQ eq_refl) as (d & ->).
    cbn [obind]. eauto.
  Qed.

  (** ** Requests *)

  Lemma active_at : forall ids gs rs (ls : list served) r q, Forall2 (stage_ok ids gs) rs ls -> nth_error ls r = Some q ->
    exists rq, nth_error rs r = Some rq /\ stage_ok ids gs rq q.
  Proof.
    intros ids gs rs ls r q F. revert r. induction F as [|x y rs ls H F IH]; intros [|r] E; try discriminate; cbn [nth_error] in *; [injection E as <-; eauto|now apply IH].
  Qed.
  Lemma active_put : forall ids gs rs (ls : list served) r p m x y s, Forall2 (stage_ok ids gs) rs ls -> nth_error ls r = Some (p, m, x) ->
    stage_ok ids gs {| rq_path := p; rq_method := m; rq_stage := s |} (p, m, y) -> Forall2 (stage_ok ids gs) (set_stage bd r s rs) (put r (p, m, y) ls).
  Proof.
    intros ids gs rs ls r p m x y s F. revert r. induction F as [|a q rs ls H F IH]; intros [|r] E SO; try discriminate; cbn [nth_error set_stage update_nth put] in *.
    - injection E as ->. destruct H as (H1 & H2 & _). cbn in H1, H2. constructor; [|exact F]. rewrite H1, H2. exact SO.
    - constructor; [exact H|]. apply IH; assumption.
  Qed.
  Lemma active_more : forall ids gs id g rs (ls : list served), Forall2 (stage_ok ids gs) rs ls -> Forall2 (stage_ok (ids ++ [id]) (gs ++ [g])) rs ls.
  Proof.
    intros ids gs id g rs ls F. induction F as [|a q rs ls H F IH]; constructor; [|exact IH].
    destruct H as (H1 & H2 & H3). split; [exact H1|]. split; [exact H2|]. destruct (rq_stage bd a), (snd q); try exact H3.
    destruct H3 as (i & d & E1 & E2 & E3). exists i, d. split; [exact E1|].
    split; (rewrite nth_error_app1; [assumption|apply nth_error_Some; congruence]).
  Qed.

  Lemma put_paths : forall (ls : list served) r p m x y, nth_error ls r = Some (p, m, x) ->
    map (fun q : served => fst (fst q)) (put r (p, m, y) ls) = map (fun q : served => fst (fst q)) ls.
  Proof.
    induction ls as [|q ls IH]; intros [|r] p m x y E; try discriminate; cbn [put nth_error map] in *.
    - injection E as ->. reflexivity.
    - f_equal. exact (IH r p m x y E).
  Qed.

  Lemma inc_sum : forall (g : group_val) l d, d = 0 -> fold_right N.add 0 (given g l) < 2 ^ 63 ->
    Done (counter_inc (fold_left N.add (given g l) d)) = Done (fold_left N.add (given g l ++ [1]) d).
  Proof.
    intros g l d -> B. f_equal. unfold counter_inc, counter_inc_by, wrap64. rewrite !fold_sum, sum_app. cbn [fold_right].
    rewrite N.mod_small; [lia|]. unfold W64. change (2 ^ 63) with 9223372036854775808 in B. change (2 ^ 64) with 18446744073709551616. lia.
  Qed.
  Lemma inc_given : forall (g : group_val) (l : list (group_val * N)), given g (l ++ [(g, 1)]) = given g l ++ [1].
  Proof. intros g l. rewrite given_app, given_cons. cbn [fst snd]. now rewrite (proj2 (group_val_eqb_spec g g) eq_refl). Qed.

  Notation STEP := (app_step bd sv heck ryu WQ WP WD).

  (** What a call does, or why it does not return: the interner refuses a path
      it does not know. *)
  Definition outcome_of (evs : list app_event) (ls : list served) (a : SERVER) (e : app_event) (ls' : list served) : Prop :=
    (exists a' o, STEP e a = Done (a', o) /\ inv (evs ++ [e]) ls' a') \/
    (STEP e a = Panic /\ exists path m l, e = Arrive path m /\ ap_paths bd a = P l /\
       let p := match path with Some x => x | None => str "unknown" end in
       ~ In p known /\ ~ In p (map (fun q : served => fst (fst q)) ls) /\ acc l p = false).

  Lemma small : forall evs ls p, lives evs ls -> N.of_nat (length evs) < 2 ^ 63 -> number p ls < 2 ^ 63.
  Proof. intros evs ls p H B. pose proof (number_le p ls). pose proof (lives_length _ _ H). lia. Qed.

  Lemma step_arrive : forall evs ls a path m, lives evs ls -> N.of_nat (length evs) < 2 ^ 63 -> inv evs ls a ->
    outcome_of evs ls a (Arrive path m) (ls ++ [(match path with Some p => p | None => str "unknown" end, method_label m, Begun)]).
  Proof.
    intros evs ls a path m LV B IV. set (p := match path with Some p => p | None => str "unknown" end). set (g := request_group p (method_label m)).
    pose proof IV as [(l & EP & ND & KN) (k1 & S1) (k2 & S2) (k3 & S3) (i1 & g1 & H1) (i2 & g2 & H2) (i3 & g3 & H3 & FA) TS EN].
    assert (HB : fold_right N.add 0 (given g (arrivals ls)) < 2 ^ 63) by (unfold g; rewrite arrivals_sum; eapply small; eassumption).
    destruct (holds_call WQ OQ N.add SQ _ _ _ _ g 1 (fun c => Done (counter_inc c)) H1 eq_refl (inc_sum g _ _ DQ HB)) as (s' & u & EU & X).
    rewrite EP, (load_requests (P l) (ap_requests bd a) k1 S1) in EU. cbn [mv_set lg_encode derived_lgset] in EU. unfold g in EU.
    destruct (requests_encode acc bd l p (method_label m) s' u ND EU) as (t & -> & ND' & TT & IP).
    unfold outcome_of, app_step. fold p. rewrite method_from_label. fold g. unfold counter_vec_inc.
    destruct u as [u|].
    - left. destruct X as (v' & -> & SV & ids' & gs' & H'). cbn [obind].
      assert (ST : store bd v' (ap_paths bd a) = P (l ++ t)) by exact (store_requests _ _ _ SV). rewrite ST.
      eexists _, _. split; [reflexivity|].
      constructor; cbn [ap_paths ap_requests ap_responses ap_durations ap_thresholds ap_encoder ap_active].
      + exists (l ++ t). split; [reflexivity|]. split; [exact ND'|]. intros x. rewrite map_app, !in_app_iff, KN. cbn [map fst In].
        split.
        * intros [[I|I]|I]; auto. destruct TT as [->| ->]; [destruct I|]. destruct I as [<-|[]]; auto.
        * intros [I|[I|[<-|[]]]]; auto. specialize (IP ltac:(discriminate)). apply in_app_iff in IP as [I|I]; [|auto]. apply KN in I. tauto.
      + eauto.
      + eauto.
      + eauto.
      + exists ids', gs'. rewrite (reload_requests (P (l ++ t)) v' SV). unfold arrivals. rewrite map_app. exact H'.
      + exists i2, g2. rewrite (proj1 (arrive_lists evs ls _ LV path m)). rewrite EP in H2. eapply grow_p; eassumption.
      + exists i3, g3. rewrite (proj2 (arrive_lists evs ls _ LV path m)). rewrite EP in H3. split; [eapply grow_q; eassumption|].
        apply Forall2_app; [exact FA|]. constructor; [|constructor]. split; [reflexivity|]. split; [reflexivity|]. exact I.
      + exact TS.
      + exact EN.
    - right. rewrite X. split; [reflexivity|]. exists path, m, l. split; [reflexivity|]. split; [exact EP|]. cbn zeta. fold p.
      assert (IM : is_method (method_label m)).
      { pose proof (lives_methods _ _ (lives_arrive evs ls path m LV)) as F. apply Forall_app in F as [_ F]. now inversion F. }
      destruct (requests_refused acc bd l p (method_label m) _ ND IM EU) as [NI RF]. rewrite KN in NI. tauto.
  Qed.

  Lemma step_start : forall evs ls a r p m now, lives evs ls -> inv evs ls a -> nth_error ls r = Some (p, m, Begun) ->
    outcome_of evs ls a (Start r now) (put r (p, m, Running now) ls).
  Proof.
    intros evs ls a r p m now LV IV NR. set (g := request_group p m).
    pose proof IV as [(l & EP & ND & KN) (k1 & S1) (k2 & S2) (k3 & S3) (i1 & g1 & H1) (i2 & g2 & H2) (i3 & g3 & H3 & FA) TS EN].
    destruct (active_at _ _ _ _ _ _ FA NR) as ([rp rm rs] & EA & SO). destruct SO as (O1 & O2 & O3). cbn [rq_path rq_method rq_stage fst snd] in *. subst rp rm.
    destruct rs; try contradiction.
    destruct (holds_with WD OD _ SQ _ _ _ _ g H3 eq_refl) as (s' & u & EU & X).
    rewrite EP, (load_requests (P l) (ap_durations bd a) k3 S3) in EU. cbn [mv_set lg_encode derived_lgset] in EU. unfold g in EU.
    destruct (requests_encode acc bd l p m s' u ND EU) as (t & -> & ND' & TT & IP).
    assert (PIN : In p l) by (apply KN; right; apply in_map_iff; exists (p, m, Begun); split; [reflexivity|]; eapply nth_error_In; exact NR).
    unfold outcome_of, app_step. rewrite EA. fold g. left.
    destruct u as [u|].
    - destruct X as (v' & id & -> & SV & H'). cbn [obind].
      assert (ST : store bd v' (ap_paths bd a) = P (l ++ t)) by exact (store_requests _ _ _ SV). rewrite ST.
      eexists _, _. split; [reflexivity|].
      assert (SPN : spans (evs ++ [Start r now]) (put r (p, m, Running now) ls) = spans evs ls).
      { rewrite spans_snoc. cbn [spans flat_map ends]. rewrite app_nil_r. eapply put_spans; [exact LV|exact NR|now left]. }
      assert (RSP : responses (evs ++ [Start r now]) (put r (p, m, Running now) ls) = responses evs ls).
      { rewrite responses_snoc. cbn [responses flat_map]. rewrite app_nil_r. eapply put_responses; exact NR. }
      constructor; cbn [ap_paths ap_requests ap_responses ap_durations ap_thresholds ap_encoder ap_active].
      + exists (l ++ t). split; [reflexivity|]. split; [exact ND'|]. intros x. rewrite (put_paths ls r p m _ _ NR), in_app_iff, <- KN.
        split; [|auto]. intros [I|I]; [exact I|]. destruct TT as [->| ->]; [destruct I|]. destruct I as [<-|[]]. exact PIN.
      + eauto.
      + eauto.
      + eauto.
      + exists i1, g1. rewrite (put_arrivals ls r p m _ _ NR). rewrite EP in H1. eapply grow_q; eassumption.
      + exists i2, g2. rewrite RSP. rewrite EP in H2. eapply grow_p; eassumption.
      + exists (i3 ++ [id]), (g3 ++ [g]). rewrite SPN, (reload_requests (P (l ++ t)) v' SV). split; [exact H'|].
        eapply active_put; [apply active_more, FA|exact NR|]. split; [reflexivity|]. split; [reflexivity|]. cbn [rq_stage snd fst].
        exists (length i3), id. split; [reflexivity|]. split; [apply nth_last|]. rewrite (holds_length _ _ _ _ _ _ _ H3). apply nth_last.
      + exact TS.
      + exact EN.
    - exfalso. assert (IM : is_method m).
      { pose proof (lives_methods _ _ LV) as F. rewrite Forall_forall in F. exact (F _ (nth_error_In _ _ NR)). }
      destruct (requests_refused acc bd l p m _ ND IM EU) as [NI _]. contradiction.
  Qed.

  (** The two ways a timer ends *)
  Lemma seconds_elapsed : forall t0 t1, as_secs_f64 (elapsed t0 t1) = seconds t0 t1.
  Proof. reflexivity. Qed.
  Lemma observed_id : forall v ids gs l i id p m t0 t1, HD v ids gs l -> nth_error ids i = Some id -> nth_error gs i = Some (request_group p m) ->
    exists v', observe_id bd sv WD doubling id t0 t1 v = Done (v', elapsed t0 t1) /\ mv_set v' = mv_set v /\ HD v' ids gs (l ++ [(request_group p m, seconds t0 t1)]).
  Proof.
    intros v ids gs l i id p m t0 t1 H N1 N2. unfold observe_id.
    assert (LD : length (h_buckets (w_default WD)) = length doubling) by (rewrite DD; reflexivity).
    destruct (holds_update WD OD _ SQ v ids gs l i id (request_group p m) (seconds t0 t1)
      (fun h => match guard_observe_since sv doubling t0 t1 h with Done (m', _) => (m', 0) | Panic => (h, 1) end) H N1 N2) as (v' & E & SV & H').
    - destruct (observe_steps sv doubling (given (request_group p m) l) (w_default WD) LD) as [_ LY].
      destruct (observe_total sv doubling (seconds t0 t1) _ LY) as (h' & EH).
      unfold guard_observe_since, guard_observe_duration. rewrite seconds_elapsed, EH. cbn [obind]. rewrite fold_left_app. cbn [fold_left].
      unfold observe_step at 1. now rewrite EH.
    - rewrite E. cbn [obind]. exists v'. auto.
  Qed.

  Lemma step_end : forall evs ls a r p m t0 now e y s, lives evs ls -> inv evs ls a -> nth_error ls r = Some (p, m, Running t0) ->
    (exists now', e = Stop r now now' /\ y = Ended t0 now /\ s = Timed bd) \/ (e = Cancel r now /\ y = Dropped t0 now /\ s = Over bd) ->
    outcome_of evs ls a e (put r (p, m, y) ls).
  Proof.
    intros evs ls a r p m t0 now e y s LV IV NR EY. set (g := request_group p m).
    pose proof IV as [(l & EP & ND & KN) (k1 & S1) (k2 & S2) (k3 & S3) (i1 & g1 & H1) (i2 & g2 & H2) (i3 & g3 & H3 & FA) TS EN].
    destruct (active_at _ _ _ _ _ _ FA NR) as ([rp rm rs] & EA & SO). destruct SO as (O1 & O2 & O3). cbn [rq_path rq_method rq_stage fst snd] in *. subst rp rm.
    destruct rs as [|t| |]; try contradiction. destruct O3 as (i & id & -> & N1 & N2).
    destruct (observed_id _ _ _ _ i id p m t0 now H3 N1 N2) as (v' & E & SV & H').
    rewrite EP, (load_requests (P l) (ap_durations bd a) k3 S3) in SV. cbn [mv_set] in SV.
    assert (SP' : spans (evs ++ [e]) (put r (p, m, y) ls) = spans evs ls ++ [(g, seconds t0 now)]).
    { rewrite spans_snoc. f_equal.
      - eapply put_spans; [exact LV|exact NR|now left].
      - assert (EE : ends e = Some r) by (destruct EY as [(? & -> & _)|(-> & _)]; reflexivity).
        cbn [spans flat_map]. rewrite EE. unfold timing. rewrite nth_put, Nat.eqb_refl, NR.
        destruct EY as [(? & _ & -> & _)|(_ & -> & _)]; reflexivity. }
    assert (RP : responses (evs ++ [e]) (put r (p, m, y) ls) = responses evs ls).
    { rewrite responses_snoc, (put_responses evs ls r p m _ y NR). destruct EY as [(? & -> & _)|(-> & _)]; cbn [responses flat_map]; apply app_nil_r. }
    assert (ST : store bd v' (ap_paths bd a) = P l) by exact (store_requests _ _ _ SV).
    assert (GO : STEP e a = Done ({| ap_paths := P l; ap_requests := ap_requests bd a; ap_responses := ap_responses bd a; ap_durations := v';
        ap_thresholds := ap_thresholds bd a; ap_encoder := ap_encoder bd a; ap_active := set_stage bd r s (ap_active bd a) |}, None)).
    { destruct EY as [(now' & -> & _ & ->)|(-> & _ & ->)]; cbn [app_step]; rewrite EA; cbn [rq_stage]; unfold timer_observe, timer_drop, timer_start;
        cbn [t_vec t_start]; rewrite TS, E; cbn [obind fst snd]; rewrite ST; reflexivity. }
    left. eexists _, _. split; [exact GO|].
    constructor; cbn [ap_paths ap_requests ap_responses ap_durations ap_thresholds ap_encoder ap_active].
    - exists l. split; [reflexivity|]. split; [exact ND|]. intros x. rewrite (put_paths ls r p m _ _ NR). apply KN.
    - eauto.
    - eauto.
    - eauto.
    - exists i1, g1. rewrite (put_arrivals ls r p m _ _ NR). rewrite EP in H1. exact H1.
    - exists i2, g2. rewrite RP. rewrite EP in H2. exact H2.
    - exists i3, g3. rewrite SP', (reload_requests (P l) v' SV). split; [exact H'|].
      eapply active_put; [exact FA|exact NR|]. split; [reflexivity|]. split; [reflexivity|]. cbn [rq_stage snd].
      destruct EY as [(? & _ & -> & ->)|(_ & -> & ->)]; exact I.
    - exact TS.
    - exact EN.
  Qed.

  Lemma step_respond : forall evs ls a r p m t0 t1 code, lives evs ls -> N.of_nat (length evs) < 2 ^ 63 -> inv evs ls a ->
    nth_error ls r = Some (p, m, Ended t0 t1) -> 100 <= code <= 999 ->
    outcome_of evs ls a (Respond r code) (put r (p, m, Answered t0 t1 code) ls).
  Proof.
    intros evs ls a r p m t0 t1 code LV B IV NR CB. set (g := response_group p m code).
    pose proof IV as [(l & EP & ND & KN) (k1 & S1) (k2 & S2) (k3 & S3) (i1 & g1 & H1) (i2 & g2 & H2) (i3 & g3 & H3 & FA) TS EN].
    destruct (active_at _ _ _ _ _ _ FA NR) as ([rp rm rs] & EA & SO). destruct SO as (O1 & O2 & O3). cbn [rq_path rq_method rq_stage fst snd] in *. subst rp rm.
    destruct rs; try contradiction.
    assert (HB : fold_right N.add 0 (given g (responses evs ls)) < 2 ^ 63) by (unfold g; rewrite (responses_sum evs ls LV); eapply small; eassumption).
    destruct (holds_call WP OP N.add SP _ _ _ _ g 1 (fun c => Done (counter_inc c)) H2 eq_refl (inc_sum g _ _ DP HB)) as (s' & u & EU & X).
    rewrite EP, (load_responses (P l) (ap_responses bd a) k2 S2) in EU. cbn [mv_set lg_encode derived_lgset] in EU. unfold g in EU.
    destruct (responses_encode acc bd l p m code s' u ND EU) as (t & -> & ND' & TT & IP).
    assert (PIN : In p l) by (apply KN; right; apply in_map_iff; exists (p, m, Ended t0 t1); split; [reflexivity|]; eapply nth_error_In; exact NR).
    unfold outcome_of, app_step. rewrite EA. fold g. unfold counter_vec_inc. left.
    destruct u as [u|].
    - destruct X as (v' & -> & SV & ids' & gs' & H'). cbn [obind].
      assert (ST : store bd v' (ap_paths bd a) = P (l ++ t)) by exact (store_responses _ _ _ SV). rewrite ST.
      eexists _, _. split; [reflexivity|].
      assert (SPN : spans (evs ++ [Respond r code]) (put r (p, m, Answered t0 t1 code) ls) = spans evs ls).
      { rewrite spans_snoc. cbn [spans flat_map ends]. rewrite app_nil_r. eapply put_spans; [exact LV|exact NR|now right]. }
      assert (RSP : responses (evs ++ [Respond r code]) (put r (p, m, Answered t0 t1 code) ls) = responses evs ls ++ [(g, 1)]).
      { rewrite responses_snoc, (put_responses evs ls r p m _ _ NR). f_equal. cbn [responses flat_map]. rewrite nth_put, Nat.eqb_refl, NR. reflexivity. }
      constructor; cbn [ap_paths ap_requests ap_responses ap_durations ap_thresholds ap_encoder ap_active].
      + exists (l ++ t). split; [reflexivity|]. split; [exact ND'|]. intros x. rewrite (put_paths ls r p m _ _ NR), in_app_iff, <- KN.
        split; [|auto]. intros [I|I]; [exact I|]. destruct TT as [->| ->]; [destruct I|]. destruct I as [<-|[]]. exact PIN.
      + eauto.
      + eauto.
      + eauto.
      + exists i1, g1. rewrite (put_arrivals ls r p m _ _ NR). rewrite EP in H1. eapply grow_q; eassumption.
      + exists ids', gs'. rewrite RSP, (reload_responses (P (l ++ t)) v' SV). exact H'.
      + exists i3, g3. rewrite SPN. rewrite EP in H3. split; [eapply grow_q; eassumption|].
        eapply active_put; [exact FA|exact NR|]. split; [reflexivity|]. split; [reflexivity|]. exact I.
      + exact TS.
      + exact EN.
    - exfalso. assert (IM : is_method m).
      { pose proof (lives_methods _ _ LV) as F. rewrite Forall_forall in F. exact (F _ (nth_error_In _ _ NR)). }
      destruct (responses_refused acc bd l p m code _ ND IM CB EU) as [NI _]. contradiction.
  Qed.

  (** ** Scrapes *)

  Lemma values : forall x (l : list bytes), value_visit heck (P l) x = LStr x.
  Proof. reflexivity. Qed.

  Lemma family_events_of : forall a, group_events [] (app_group bd heck WQ WP WD a)
    (EvHelp [] (str "http_requests") (str "total number of HTTP requests by path and method") ::
       family_events [] (str "http_requests") (vec_family L N (w_iter WQ) (group_visit heck (requests_set (ap_paths bd a))) KCounter MCounter (load bd (ap_paths bd a) (ap_requests bd a))) ++
     EvHelp [] (str "http_responses") (str "total number of HTTP responses by path, method, and status") ::
       family_events [] (str "http_responses") (vec_family L N (w_iter WP) (group_visit heck (responses_set (ap_paths bd a))) KCounter MCounter (load bd (ap_paths bd a) (ap_responses bd a))) ++
     EvHelp [] (str "http_request_duration") (str "duration of HTTP handlers by path and method") ::
       family_events [] (str "http_request_duration") (vec_family L hist (w_iter WD) (group_visit heck (requests_set (ap_paths bd a))) KHistogram (hist_sample (ap_thresholds bd a)) (load bd (ap_paths bd a) (ap_durations bd a))) ++ []).
  Proof.
    intros a. apply GE_struct. unfold app_group.
    apply FE_documented; [discriminate|exact (trim_trimmed (str " total number of HTTP requests by path and method"))|].
    apply FE_documented; [discriminate|exact (trim_trimmed (str " total number of HTTP responses by path, method, and status"))|].
    apply FE_documented; [discriminate|exact (trim_trimmed (str " duration of HTTP handlers by path and method"))|].
    constructor.
  Qed.

  Lemma requests_family : forall evs ls a, lives evs ls -> N.of_nat (length evs) < 2 ^ 63 -> inv evs ls a ->
    let fe := family_events [] (str "http_requests") (vec_family L N (w_iter WQ) (group_visit heck (requests_set (ap_paths bd a))) KCounter MCounter (load bd (ap_paths bd a) (ap_requests bd a))) in
    Forall event_ok fe /\ forall parts, Forall2 (event_lines ryu) fe parts ->
      exists ts ps, concat parts = Type_ (str "http_requests") (kind_word KCounter) :: concat ps /\ NoDup ts /\
        (forall q : bytes * bytes, In q ts <-> 0 < number (about (fst q) (snd q)) ls) /\
        Forall2 (fun q part => exists i, part = [i] /\
          int_sample ryu (str "http_requests") (request_labels heck (fst q) (snd q)) (Z.of_N (number (about (fst q) (snd q)) ls)) i) ts ps.
  Proof.
    intros evs ls a LV B IV. pose proof IV as [(l & EP & ND & KN) _ _ _ (i1 & g1 & H1) _ _ _ _]. rewrite EP in *.
    assert (SUM : forall q : bytes * bytes, fold_left N.add (given (request_group (fst q) (snd q)) (arrivals ls)) (w_default WQ) = number (about (fst q) (snd q)) ls).
    { intros q. rewrite fold_sum, DQ, arrivals_sum. reflexivity. }
    assert (KEYS : forall q : bytes * bytes, 0 < number (about (fst q) (snd q)) ls <-> In (request_group (fst q) (snd q)) (map fst (arrivals ls))).
    { intros q. rewrite <- arrivals_sum. symmetry. apply ones, arrivals_ones. }
    refine (block heck ryu WQ OQ N.add SQ (requests_set (P l)) (request_labels_valid _) (str "http_requests") _ KCounter MCounter
      (fun q : bytes * bytes => request_group (fst q) (snd q)) _ _ _ i1 g1 (arrivals ls) H1 _ _ KEYS _ _).
    - apply valid_metric_nameb_spec. reflexivity.
    - intros [p m] [p' m'] E. apply request_group_inj in E as [E1 E2]. cbn in E1, E2. congruence.
    - intros g I. destruct (arrivals_keys evs ls g LV I) as (p & m & -> & _). now exists (p, m).
    - intros q K. rewrite SUM. cbn [metric_in_range]. eapply small; eassumption.
    - intros q part K X. rewrite SUM in X. destruct X as (i & -> & X). exists i. split; [reflexivity|].
      apply KEYS in K. destruct (arrivals_keys evs ls _ LV K) as (p & m & E & IM). apply request_group_inj in E as [E1 E2].
      rewrite (visit_request heck (P l)) in X; [exact X|intros v; reflexivity|now rewrite E2].
  Qed.

  Lemma responses_family : forall evs ls a, lives evs ls -> N.of_nat (length evs) < 2 ^ 63 -> inv evs ls a ->
    let fe := family_events [] (str "http_responses") (vec_family L N (w_iter WP) (group_visit heck (responses_set (ap_paths bd a))) KCounter MCounter (load bd (ap_paths bd a) (ap_responses bd a))) in
    Forall event_ok fe /\ forall parts, Forall2 (event_lines ryu) fe parts ->
      exists ts ps, concat parts = Type_ (str "http_responses") (kind_word KCounter) :: concat ps /\ NoDup ts /\
        (forall q : bytes * bytes * N, In q ts <-> 0 < number (fun x => about (fst (fst q)) (snd (fst q)) x && answered (snd q) x) ls) /\
        Forall2 (fun q part => exists i, part = [i] /\
          int_sample ryu (str "http_responses") (response_labels heck (fst (fst q)) (snd (fst q)) (snd q))
            (Z.of_N (number (fun x => about (fst (fst q)) (snd (fst q)) x && answered (snd q) x) ls)) i) ts ps.
  Proof.
    intros evs ls a LV B IV. pose proof IV as [(l & EP & ND & KN) _ _ _ _ (i1 & g1 & H1) _ _ _]. rewrite EP in *.
    assert (SUM : forall q : bytes * bytes * N, fold_left N.add (given (response_group (fst (fst q)) (snd (fst q)) (snd q)) (responses evs ls)) (w_default WP) =
      number (fun x => about (fst (fst q)) (snd (fst q)) x && answered (snd q) x) ls).
    { intros q. rewrite fold_sum, DP, (responses_sum evs ls LV). reflexivity. }
    assert (KEYS : forall q : bytes * bytes * N, 0 < number (fun x => about (fst (fst q)) (snd (fst q)) x && answered (snd q) x) ls <->
      In (response_group (fst (fst q)) (snd (fst q)) (snd q)) (map fst (responses evs ls))).
    { intros q. rewrite <- (responses_sum evs ls LV). symmetry. apply ones, responses_ones. }
    refine (block heck ryu WP OP N.add SP (responses_set (P l)) (response_labels_valid _) (str "http_responses") _ KCounter MCounter
      (fun q : bytes * bytes * N => response_group (fst (fst q)) (snd (fst q)) (snd q)) _ _ _ i1 g1 (responses evs ls) H1 _ _ KEYS _ _).
    - apply valid_metric_nameb_spec. reflexivity.
    - intros [[p m] c] [[p' m'] c'] E. apply response_group_inj in E as (E1 & E2 & E3). cbn in E1, E2, E3. congruence.
    - intros g I. destruct (responses_keys evs ls g LV I) as (p & m & c & -> & _). now exists (p, m, c).
    - intros q K. rewrite SUM. cbn [metric_in_range]. eapply small; eassumption.
    - intros q part K X. rewrite SUM in X. destruct X as (i & -> & X). exists i. split; [reflexivity|].
      apply KEYS in K. destruct (responses_keys evs ls _ LV K) as (p & m & c & E & IM & CB). apply response_group_inj in E as (E1 & E2 & E3).
      rewrite (visit_response heck (P l)) in X; [exact X|intros v; reflexivity|now rewrite E2|now rewrite E3].
  Qed.

  Lemma durations_family : forall evs ls a, lives evs ls -> N.of_nat (length evs) < 2 ^ 63 -> inv evs ls a ->
    let fe := family_events [] (str "http_request_duration") (vec_family L hist (w_iter WD) (group_visit heck (requests_set (ap_paths bd a))) KHistogram (hist_sample doubling) (load bd (ap_paths bd a) (ap_durations bd a))) in
    Forall event_ok fe /\ forall parts, Forall2 (event_lines ryu) fe parts ->
      exists ts ps, concat parts = Type_ (str "http_request_duration") (kind_word KHistogram) :: concat ps /\ NoDup ts /\
        (forall q : bytes * bytes, In q ts <-> times (fst q) (snd q) evs ls <> []) /\
        Forall2 (fun q part => observed_lines ryu [] (str "http_request_duration") (request_labels heck (fst q) (snd q)) doubling (times (fst q) (snd q) evs ls) part) ts ps.
  Proof.
    intros evs ls a LV B IV. pose proof IV as [(l & EP & ND & KN) _ _ _ _ _ (i1 & g1 & H1 & _) _ _]. rewrite EP in *.
    assert (LD : length (h_buckets (w_default WD)) = length doubling) by (rewrite DD; reflexivity).
    assert (KEYS : forall q : bytes * bytes, times (fst q) (snd q) evs ls <> [] <-> In (request_group (fst q) (snd q)) (map fst (spans evs ls))).
    { intros q. rewrite <- spans_times. apply (given_in WD (observe_step sv doubling)). }
    assert (FIN : forall q : bytes * bytes, exists h, fold_left (observe_step sv doubling) (given (request_group (fst q) (snd q)) (spans evs ls)) (w_default WD) = h /\ length (h_buckets h) = length doubling /\
      (forall k t, nth_error doubling k = Some t -> first_buckets (S k) (h_buckets h) = count_le (times (fst q) (snd q) evs ls) t) /\
      first_buckets (length doubling) (h_buckets h) + h_inf h = N.of_nat (length (times (fst q) (snd q) evs ls)) /\ h_sum h = float_sum (times (fst q) (snd q) evs ls)).
    { intros q. rewrite spans_times.
      destruct (observations_counted sv bd doubling (times (fst q) (snd q) evs ls) (doubling_sorted bd)) as (h & E & X).
      - intros t E. discriminate.
      - now apply times_no_nan.
      - pose proof (times_length (fst q) (snd q) evs ls). eapply N.le_lt_trans with (N.of_nat (length evs)); [lia|]. eapply N.lt_trans; [exact B|reflexivity].
      - destruct (observe_steps sv doubling (times (fst q) (snd q) evs ls) (w_default WD) LD) as [E' _]. rewrite DD in *.
        change (length doubling) with 16%nat in E. rewrite E in E'. injection E' as E'. exists h. split; [now symmetry|exact X]. }
    refine (block heck ryu WD OD (observe_step sv doubling) SQ (requests_set (P l)) (request_labels_valid _) (str "http_request_duration") _ KHistogram (hist_sample doubling)
      (fun q : bytes * bytes => request_group (fst q) (snd q)) _ _ _ i1 g1 (spans evs ls) H1 _ _ KEYS _ _).
    - apply valid_metric_nameb_spec. reflexivity.
    - intros [p m] [p' m'] E. apply request_group_inj in E as [E1 E2]. cbn in E1, E2. congruence.
    - intros g I. destruct (spans_keys evs ls g LV I) as (p & m & -> & _). now exists (p, m).
    - intros q K. destruct (FIN q) as (h & -> & LH & _ & TT & _). unfold hist_sample, metric_in_range. split; [now symmetry|]. rewrite LH, TT.
      pose proof (times_length (fst q) (snd q) evs ls). lia.
    - intros q part K X. destruct (FIN q) as (h & EH & LH & CC & TT & SS). rewrite EH in X. cbn [hist_sample metric_lines] in X.
      apply KEYS in K. destruct (spans_keys evs ls _ LV K) as (p & m & E & IM). apply request_group_inj in E as [E1 E2].
      rewrite (visit_request heck (P l)) in X; [|intros v; reflexivity|now rewrite E2].
      exact (histogram_lines_observed ryu [] (str "http_request_duration") _ doubling _ h part LH CC TT SS X).
  Qed.

  Lemma step_scrape : forall evs ls a, lives evs ls -> N.of_nat (length evs) < 2 ^ 63 -> inv evs ls a ->
    exists a' body, STEP Scrape a = Done (a', Some body) /\ inv (evs ++ [Scrape]) ls a' /\ tells heck ryu doubling evs ls body.
  Proof.
    intros evs ls a LV B IV.
    destruct (requests_family evs ls a LV B IV) as [K1 F1]. destruct (responses_family evs ls a LV B IV) as [K2 F2]. destruct (durations_family evs ls a LV B IV) as [K3 F3].
    pose proof (family_events_of a) as GE. pose proof IV as [IP S1 S2 S3 I1 I2 I3 TS EN]. rewrite TS in GE.
    set (fe1 := family_events [] (str "http_requests") _) in *. set (fe2 := family_events [] (str "http_responses") _) in *. set (fe3 := family_events [] (str "http_request_duration") _) in *.
    match type of GE with group_events _ _ ?e => set (all := e) in * end.
    assert (OK : Forall event_ok all).
    { assert (HN : forall n h, valid_metric_nameb n = true -> forallb (fun b => negb (b =? 10) && negb (b =? 92)) h = true -> event_ok (EvHelp [] n h)).
      { intros n h V PH. split; [constructor; [now apply valid_metric_nameb_spec|constructor]|]. rewrite forallb_forall in PH.
        split; intros I; specialize (PH _ I); discriminate. }
      unfold all. constructor; [apply HN; reflexivity|]. apply Forall_app. split; [exact K1|].
      constructor; [apply HN; reflexivity|]. apply Forall_app. split; [exact K2|].
      constructor; [apply HN; reflexivity|]. apply Forall_app. split; [exact K3|constructor]. }
    destruct (text_round_trip ryu bd _ all (good_writer []) RY GE OK (fun k => eq_refl)) as (st & out & items & E1 & E2 & E3 & (parts & P1 & P2) & _).
    assert (BODY : exists s2, same s2 buffered_new /\ STEP Scrape a = Done ({| ap_paths := ap_paths bd a; ap_requests := ap_requests bd a; ap_responses := ap_responses bd a;
        ap_durations := ap_durations bd a; ap_thresholds := ap_thresholds bd a; ap_encoder := s2; ap_active := ap_active bd a |}, Some out)).
    { cbn [app_step]. rewrite (collect_group_events _ all GE) in E1 |- *.
      destruct (events_respects ryu bd all (ap_encoder bd a) buffered_new EN) as [S' E].
      rewrite (buffered_is_text ryu bd all buffered_new) in S', E by (intros k; reflexivity). unfold buffered_new in S', E. rewrite E1 in S', E. cbn [fst snd] in S', E.
      destruct (do_events (buffered_encoder ryu bd) all (ap_encoder bd a)) as [s1 r1]. cbn [fst snd] in S', E. subst r1.
      destruct (finish_same s1 st S') as [F1' F2']. destruct (buffered_finish s1) as [s1' o1]. cbn [fst snd] in F1', F2'. subst o1.
      exists s1'. split; [exact F1'|]. cbn in E2.
      assert (X : snd (buffered_finish st) = Done (w_out (te_writer st))).
      { destruct S' as (_ & _ & _ & R2). unfold buffered_finish, unreachable, text_flush. cbn. reflexivity. }
      rewrite X, E2. reflexivity. }
    destruct BODY as (s2 & SM & GO). eexists _, out. split; [exact GO|]. split.
    - assert (SN : spans (evs ++ [Scrape]) ls = spans evs ls) by (rewrite spans_snoc; apply app_nil_r).
      assert (RN : responses (evs ++ [Scrape]) ls = responses evs ls) by (rewrite responses_snoc; apply app_nil_r).
      constructor; cbn [ap_paths ap_requests ap_responses ap_durations ap_thresholds ap_encoder ap_active]; rewrite ?SN, ?RN; assumption.
    - unfold all in P1.
      inversion P1 as [|? h1 ? parts1 A1 P1']; subst. cbn [event_lines] in A1. subst h1.
      apply Forall2_app_inv_l in P1' as (q1 & r1 & Q1 & P1' & ->).
      inversion P1' as [|? h2 ? parts2 A2 P2']; subst. cbn [event_lines] in A2. subst h2.
      apply Forall2_app_inv_l in P2' as (q2 & r2 & Q2 & P2' & ->).
      inversion P2' as [|? h3 ? parts3 A3 P3']; subst. cbn [event_lines] in A3. subst h3.
      apply Forall2_app_inv_l in P3' as (q3 & r3 & Q3 & P3' & ->). inversion P3'; subst.
      destruct (F1 q1 Q1) as (t1 & u1 & C1 & N1 & L1 & G1). destruct (F2 q2 Q2) as (t2 & u2 & C2 & N2 & L2 & G2). destruct (F3 q3 Q3) as (t3 & u3 & C3 & N3 & L3 & G3).
      eexists items, (Help _ _ :: concat q1), (Help _ _ :: concat q2), (Help _ _ :: concat q3). split; [exact E3|]. split.
      + rewrite P2. cbn [concat]. rewrite !concat_app. cbn [concat]. rewrite !concat_app. cbn [concat]. rewrite !concat_app. cbn [concat app]. rewrite !app_nil_r. reflexivity.
      + split; [|split].
        * exists t1, u1. rewrite C1. split; [reflexivity|auto].
        * exists t2, u2. rewrite C2. split; [reflexivity|auto].
        * exists t3, u3. rewrite C3. split; [reflexivity|auto].
  Qed.

  (** ** Runs *)

  Notation RUN := (app_run bd sv heck ryu WQ WP WD).

  Lemma run_app : forall evs more a, RUN (evs ++ more) a =
    (let! p := RUN evs a in let (a1, os) := (p : SERVER * list bytes) in
     let! q := RUN more a1 in let (a2, os') := (q : SERVER * list bytes) in Done (a2, os ++ os')).
  Proof.
    induction evs as [|e evs IH]; intros more a; cbn [app app_run obind].
    - destruct (RUN more a) as [[a2 os]|]; reflexivity.
    - destruct (STEP e a) as [[a1 o]|]; cbn [obind]; [|reflexivity]. rewrite IH. destruct (RUN evs a1) as [[a2 os]|]; cbn [obind]; [|reflexivity].
      destruct (RUN more a2) as [[a3 os']|]; cbn [obind]; [|reflexivity]. now destruct o.
  Qed.
  Lemma run_bodies : forall evs a a' os, RUN evs a = Done (a', os) -> length os = scrapes_in evs.
  Proof.
    induction evs as [|e evs IH]; intros a a' os E; cbn [app_run] in E; [injection E as _ <-; reflexivity|].
    destruct (STEP e a) as [[a1 o]|] eqn:ES; cbn [obind] in E; [|discriminate]. destruct (RUN evs a1) as [[a2 os2]|] eqn:ER; cbn [obind] in E; [|discriminate].
    injection E as <- <-. specialize (IH _ _ _ ER). unfold scrapes_in in *. cbn [filter].
    assert (X : forall A (o1 : outcome A) (f : A -> SERVER) (o2 : option bytes), (let! x := o1 in Done (f x, @None bytes)) = Done (a1, o2) -> o2 = None).
    { intros A [x|] f o' H; [now injection H|discriminate]. }
    destruct e; cbn [app_step] in ES.
    - apply X in ES. subst. exact IH.
    - destruct (nth_error (ap_active bd a) r) as [[p m []]|]; try (injection ES as <- <-; exact IH).
      destruct (vec_with_labels _ _ _ _ _ _) as [[d id]|]; cbn [obind] in ES; [|discriminate]. injection ES as <- <-. exact IH.
    - destruct (nth_error (ap_active bd a) r) as [[p m []]|]; try (injection ES as <- <-; exact IH). apply X in ES. subst. exact IH.
    - destruct (nth_error (ap_active bd a) r) as [[p m []]|]; try (injection ES as <- <-; exact IH). apply X in ES. subst. exact IH.
    - destruct (nth_error (ap_active bd a) r) as [[p m []]|]; try (injection ES as <- <-; exact IH). apply X in ES. subst. exact IH.
    - destruct (collect_group _ _ _) as [s1 []]; try discriminate. destruct (buffered_finish s1) as [s2 [body|]]; cbn [obind] in ES; [|discriminate].
      injection ES as <- <-. cbn [length]. now rewrite IH.
  Qed.

  Lemma lives_arrived : forall evs ls, lives evs ls -> map (fun q : served => fst (fst q)) ls = arrived evs.
  Proof.
    intros evs ls H. unfold arrived. induction H; rewrite ?flat_map_app; cbn [flat_map]; rewrite ?app_nil_r;
      try (rewrite (put_paths _ _ _ _ _ _ H0)); try assumption; [reflexivity|]. rewrite map_app, IHlives. f_equal. destruct path; reflexivity.
  Qed.

  Definition refused (evs : list app_event) (a0 : SERVER) : Prop :=
    exists pre path m post a os l, evs = pre ++ Arrive path m :: post /\ RUN pre a0 = Done (a, os) /\ ap_paths bd a = P l /\
      let p := match path with Some x => x | None => str "unknown" end in
      ~ In p known /\ ~ In p (arrived pre) /\ acc l p = false.

  Lemma run_lives : forall evs ls a0, inv [] [] a0 -> lives evs ls -> N.of_nat (length evs) < 2 ^ 63 ->
    (exists a os, RUN evs a0 = Done (a, os) /\ inv evs ls a) \/ (RUN evs a0 = Panic /\ refused evs a0).
  Proof.
    intros evs ls a0 I0 LV B. induction LV as [| evs ls path m LV IH | evs ls r p m now LV IH E | evs ls r p m t0 now now' LV IH E BN | evs ls r p m t0 t1 code LV IH E CB | evs ls r p m t0 now LV IH E BN | evs ls LV IH].
    - left. exists a0, []. split; [reflexivity|exact I0].
    - assert (B' : N.of_nat (length evs) < 2 ^ 63) by (rewrite app_length in B; cbn [length] in B; lia).
      destruct (IH B') as [(a & os & R & IV)|(R & RF)].
      + pose proof (step_arrive evs ls a path m LV B' IV) as [(a' & o & ES & IV')|(ES & path' & m' & l & EE & EP & N1 & N2 & N3)].
        * left. exists a', (os ++ match o with Some b => [b] | None => [] end). split; [|exact IV']. rewrite run_app, R. cbn [obind app_run]. rewrite ES. cbn [obind]. now destruct o.
        * right. split; [rewrite run_app, R; cbn [obind app_run]; rewrite ES; reflexivity|]. injection EE as <- <-.
          exists evs, path, m, [], a, os, l. split; [reflexivity|]. split; [exact R|]. split; [exact EP|]. cbn zeta. rewrite (lives_arrived _ _ LV) in N2. auto.
      + right. split; [rewrite run_app, R; reflexivity|]. destruct RF as (pre & path' & m' & post & a & os & l & -> & X). exists pre, path', m', (post ++ [Arrive path m]), a, os, l. split; [now rewrite <- app_assoc|exact X].
    - assert (B' : N.of_nat (length evs) < 2 ^ 63) by (rewrite app_length in B; cbn [length] in B; lia).
      destruct (IH B') as [(a & os & R & IV)|(R & RF)].
      + pose proof (step_start evs ls a r p m now LV IV E) as [(a' & o & ES & IV')|(ES & path' & m' & l & EE & _)]; [|discriminate].
        left. exists a', (os ++ match o with Some b => [b] | None => [] end). split; [|exact IV']. rewrite run_app, R. cbn [obind app_run]. rewrite ES. cbn [obind]. now destruct o.
      + right. split; [rewrite run_app, R; reflexivity|]. destruct RF as (pre & path' & m' & post & a & os & l & -> & X). eexists pre, path', m', (post ++ [_]), a, os, l. split; [now rewrite <- app_assoc|exact X].
    - assert (B' : N.of_nat (length evs) < 2 ^ 63) by (rewrite app_length in B; cbn [length] in B; lia).
      destruct (IH B') as [(a & os & R & IV)|(R & RF)].
      + pose proof (step_end evs ls a r p m t0 now (Stop r now now') _ _ LV IV E (or_introl (ex_intro _ now' (conj eq_refl (conj eq_refl eq_refl))))) as [(a' & o & ES & IV')|(ES & path' & m' & l & EE & _)]; [|discriminate].
        left. exists a', (os ++ match o with Some b => [b] | None => [] end). split; [|exact IV']. rewrite run_app, R. cbn [obind app_run]. rewrite ES. cbn [obind]. now destruct o.
      + right. split; [rewrite run_app, R; reflexivity|]. destruct RF as (pre & path' & m' & post & a & os & l & -> & X). eexists pre, path', m', (post ++ [_]), a, os, l. split; [now rewrite <- app_assoc|exact X].
    - assert (B' : N.of_nat (length evs) < 2 ^ 63) by (rewrite app_length in B; cbn [length] in B; lia).
      destruct (IH B') as [(a & os & R & IV)|(R & RF)].
      + pose proof (step_respond evs ls a r p m t0 t1 code LV B' IV E CB) as [(a' & o & ES & IV')|(ES & path' & m' & l & EE & _)]; [|discriminate].
        left. exists a', (os ++ match o with Some b => [b] | None => [] end). split; [|exact IV']. rewrite run_app, R. cbn [obind app_run]. rewrite ES. cbn [obind]. now destruct o.
      + right. split; [rewrite run_app, R; reflexivity|]. destruct RF as (pre & path' & m' & post & a & os & l & -> & X). eexists pre, path', m', (post ++ [_]), a, os, l. split; [now rewrite <- app_assoc|exact X].
    - assert (B' : N.of_nat (length evs) < 2 ^ 63) by (rewrite app_length in B; cbn [length] in B; lia).
      destruct (IH B') as [(a & os & R & IV)|(R & RF)].
      + pose proof (step_end evs ls a r p m t0 now (Cancel r now) _ _ LV IV E (or_intror (conj eq_refl (conj eq_refl eq_refl)))) as [(a' & o & ES & IV')|(ES & path' & m' & l & EE & _)]; [|discriminate].
        left. exists a', (os ++ match o with Some b => [b] | None => [] end). split; [|exact IV']. rewrite run_app, R. cbn [obind app_run]. rewrite ES. cbn [obind]. now destruct o.
      + right. split; [rewrite run_app, R; reflexivity|]. destruct RF as (pre & path' & m' & post & a & os & l & -> & X). eexists pre, path', m', (post ++ [_]), a, os, l. split; [now rewrite <- app_assoc|exact X].
    - assert (B' : N.of_nat (length evs) < 2 ^ 63) by (rewrite app_length in B; cbn [length] in B; lia).
      destruct (IH B') as [(a & os & R & IV)|(R & RF)].
      + destruct (step_scrape evs ls a LV B' IV) as (a' & body & ES & IV' & _).
        left. exists a', (os ++ [body]). split; [|exact IV']. rewrite run_app, R. cbn [obind app_run]. now rewrite ES.
      + right. split; [rewrite run_app, R; reflexivity|]. destruct RF as (pre & path' & m' & post & a & os & l & -> & X). eexists pre, path', m', (post ++ [_]), a, os, l. split; [now rewrite <- app_assoc|exact X].
  Qed.

  (** The server does not panic unless the interner refuses a path. *)
  Theorem server_runs : forall powi par a0 evs ls, powi_exact powi -> 1 <= par -> par * 4 <= 2 ^ 63 -> app_new bd WQ WP WD powi par (P known) = Done a0 ->
    lives evs ls -> N.of_nat (length evs) < 2 ^ 63 -> (exists a os, RUN evs a0 = Done (a, os)) \/ (RUN evs a0 = Panic /\ refused evs a0).
  Proof.
    intros powi par a0 evs ls PW P1 P2 E LV B. destruct (run_lives evs ls a0 (inv_new powi par a0 PW P1 P2 E) LV B) as [(a & os & R & _)|X]; [left; eauto|now right].
  Qed.

  (** Every scrape tells about the requests so far. *)
  Theorem server_scrapes : forall powi par a0 pre ls post a os, powi_exact powi -> 1 <= par -> par * 4 <= 2 ^ 63 -> app_new bd WQ WP WD powi par (P known) = Done a0 ->
    lives pre ls -> N.of_nat (length pre) < 2 ^ 63 -> RUN (pre ++ Scrape :: post) a0 = Done (a, os) ->
    exists before body behind, os = before ++ body :: behind /\ length before = scrapes_in pre /\ tells heck ryu doubling pre ls body.
  Proof.
    intros powi par a0 pre ls post a os PW P1 P2 E LV B R. rewrite run_app in R.
    destruct (run_lives pre ls a0 (inv_new powi par a0 PW P1 P2 E) LV B) as [(a1 & os1 & R1 & IV)|[R1 _]]; rewrite R1 in R; [|discriminate].
    cbn [obind app_run] in R. destruct (step_scrape pre ls a1 LV B IV) as (a2 & body & ES & _ & T). rewrite ES in R. cbn [obind] in R.
    destruct (RUN post a2) as [[a3 os3]|]; [|discriminate]. cbn [obind] in R. injection R as <- <-.
    exists os1, body, os3. split; [reflexivity|]. split; [exact (run_bodies _ _ _ _ R1)|exact T].
  Qed.
End Server.

(** ** Accounting *)

Lemma accounting : forall evs ls p m, lives evs ls ->
  number (about p m) ls = N.of_nat (length (times p m evs ls)) + number (fun q => about p m q && inside q) ls.
Proof.
  intros evs ls p m H.
  assert (PUT : forall l i p' m' x y b, nth_error l i = Some (p', m', x) -> inside (p', m', x) = true -> inside (p', m', y) = b ->
     number (fun q => about p m q && inside q) (put i (p', m', y) l) + bit (about p m (p', m', x)) =
     number (fun q => about p m q && inside q) l + bit (about p m (p', m', x) && b)).
  { intros l i p' m' x y b E X Y. pose proof (number_put (fun q => about p m q && inside q) i (p', m', y) _ l E) as N. cbn beta in N. rewrite X, Y, andb_true_r in N. exact N. }
  assert (AB : forall l i p' m' x y, nth_error l i = Some (p', m', x) -> number (about p m) (put i (p', m', y) l) = number (about p m) l).
  { intros l i p' m' x y E. pose proof (number_put (about p m) i (p', m', y) _ l E) as N. change (about p m (p', m', y)) with (about p m (p', m', x)) in N. lia. }
  assert (ONE : forall p' m' t0 t1, N.of_nat (length (given (request_group p m) [(request_group p' m', seconds t0 t1)])) = bit (about p m (p', m', Begun))).
  { intros. rewrite given_cons. cbn [fst snd given filter map]. rewrite app_nil_r, geqb_request. unfold about. cbn [fst snd]. destruct (same_bytes p' p && same_bytes m' m); reflexivity. }
  rewrite <- spans_times. induction H as [| evs ls path m0 LV IH | evs ls r p' m' now LV IH E | evs ls r p' m' t0 now now' LV IH E BN | evs ls r p' m' t0 t1 code LV IH E CB | evs ls r p' m' t0 now LV IH E BN | evs ls LV IH].
  - reflexivity.
  - rewrite (proj2 (arrive_lists evs ls _ LV path m0)), !number_app, !number_one, IH. change (inside (_, _, Begun)) with true. rewrite andb_true_r. lia.
  - rewrite (AB ls r p' m' _ _ E). pose proof (PUT ls r p' m' _ (Running now) true E eq_refl eq_refl) as N. rewrite andb_true_r in N.
    rewrite spans_snoc, (put_spans evs ls r p' m' _ _ LV E (or_introl eq_refl)). cbn [spans flat_map ends]. rewrite app_nil_r. lia.
  - rewrite (AB ls r p' m' _ _ E). pose proof (PUT ls r p' m' _ (Ended t0 now) false E eq_refl eq_refl) as N. rewrite andb_false_r in N. cbn [bit] in N.
    rewrite spans_snoc, (put_spans evs ls r p' m' _ _ LV E (or_introl eq_refl)), given_app, app_length, Nnat.Nat2N.inj_add.
    assert (X : spans [Stop r now now'] (put r (p', m', Ended t0 now) ls) = [(request_group p' m', seconds t0 now)]).
    { cbn [spans flat_map ends]. unfold timing. rewrite nth_put, Nat.eqb_refl, E. reflexivity. }
    rewrite X, ONE. change (about p m (p', m', Running t0)) with (about p m (p', m', Begun)) in N. lia.
  - rewrite (AB ls r p' m' _ _ E).
    pose proof (number_put (fun q => about p m q && inside q) r (p', m', Answered t0 t1 code) _ ls E) as N. cbn beta in N.
    change (inside (p', m', Ended t0 t1)) with false in N. change (inside (p', m', Answered t0 t1 code)) with false in N. rewrite !andb_false_r in N.
    rewrite spans_snoc, (put_spans evs ls r p' m' _ (Answered t0 t1 code) LV E (or_intror eq_refl)). cbn [spans flat_map ends]. rewrite app_nil_r. lia.
  - rewrite (AB ls r p' m' _ _ E). pose proof (PUT ls r p' m' _ (Dropped t0 now) false E eq_refl eq_refl) as N. rewrite andb_false_r in N. cbn [bit] in N.
    rewrite spans_snoc, (put_spans evs ls r p' m' _ _ LV E (or_introl eq_refl)), given_app, app_length, Nnat.Nat2N.inj_add.
    assert (X : spans [Cancel r now] (put r (p', m', Dropped t0 now) ls) = [(request_group p' m', seconds t0 now)]).
    { cbn [spans flat_map ends]. unfold timing. rewrite nth_put, Nat.eqb_refl, E. reflexivity. }
    rewrite X, ONE. change (about p m (p', m', Running t0)) with (about p m (p', m', Begun)) in N. lia.
  - rewrite spans_snoc. cbn [spans flat_map ends]. rewrite app_nil_r. exact IH.
Qed.

(** A request is in one of the states; an answer has one code. *)
Lemma kinds : forall ls p m, number (about p m) ls = number (fun q => about p m q && inside q) ls + number (fun q => about p m q && between q) ls +
  number (fun q => about p m q && done q) ls + number (fun q => about p m q && dropped q) ls.
Proof.
  intros ls p m. induction ls as [|[[p' m'] x] ls IH]; [reflexivity|]. rewrite !number_cons, IH.
  destruct (about p m (p', m', x)), x; cbn [andb inside between done dropped snd bit]; lia.
Qed.

Lemma lives_answers : forall evs ls, lives evs ls -> Forall (fun q : served => forall t0 t1 c, snd q = Answered t0 t1 c -> 100 <= c <= 999) ls.
Proof.
  intros evs ls H.
  assert (PUT : forall l i (x : served), Forall (fun q : served => forall t0 t1 c, snd q = Answered t0 t1 c -> 100 <= c <= 999) l ->
    (forall t0 t1 c, snd x = Answered t0 t1 c -> 100 <= c <= 999) -> Forall (fun q : served => forall t0 t1 c, snd q = Answered t0 t1 c -> 100 <= c <= 999) (put i x l)).
  { induction l as [|q l IH]; intros [|i] x F E; cbn [put]; inversion F; subst; constructor; auto. }
  induction H; try (apply PUT; [assumption|]); cbn [snd]; try (intros; discriminate); try assumption.
  - constructor.
  - apply Forall_app. split; [assumption|]. constructor; [|constructor]. cbn. discriminate.
  - intros a b c E. injection E as _ _ <-. assumption.
Qed.

Lemma sum_bit : forall c len s, fold_right N.add 0 (map (fun i => bit (c =? N.of_nat i)) (seq s len)) = bit ((N.of_nat s <=? c) && (c <? N.of_nat (s + len))).
Proof.
  intros c len. induction len as [|len IH]; intros s; cbn [seq map fold_right].
  - destruct (N.leb_spec (N.of_nat s) c), (N.ltb_spec c (N.of_nat (s + 0))); cbn; lia.
  - rewrite IH. destruct (N.eqb_spec c (N.of_nat s)), (N.leb_spec (N.of_nat (S s)) c), (N.ltb_spec c (N.of_nat (S s + len))), (N.leb_spec (N.of_nat s) c), (N.ltb_spec c (N.of_nat (s + S len))); cbn; lia.
Qed.

Lemma codes_sum : forall evs ls p m, lives evs ls -> number (fun q => about p m q && done q) ls =
  fold_right N.add 0 (map (fun c => number (fun q => about p m q && answered (N.of_nat c) q) ls) (seq 100 900)).
Proof.
  intros evs ls p m H. pose proof (lives_answers _ _ H) as F. clear H.
  assert (Z : forall l, fold_right N.add 0 (map (fun _ : nat => 0) l) = 0) by (induction l; cbn; auto).
  assert (AD : forall (f g : nat -> N) l, fold_right N.add 0 (map (fun c => f c + g c) l) = fold_right N.add 0 (map f l) + fold_right N.add 0 (map g l)) by (induction l; cbn; lia).
  induction F as [|[[p' m'] x] ls X F IH]; [symmetry; apply Z|]. rewrite number_cons.
  rewrite (map_ext _ (fun c => bit (about p m (p', m', x) && answered (N.of_nat c) (p', m', x)) + number (fun q => about p m q && answered (N.of_nat c) q) ls)) by (intros c; apply number_cons).
  rewrite AD, <- IH. f_equal. destruct (about p m (p', m', x)); cbn [andb bit]; [|symmetry; apply Z].
  destruct x as [|t0|t0 t1|t0 t1 c|t0 t1]; try (symmetry; apply Z). cbn [snd] in X. specialize (X t0 t1 c eq_refl).
  unfold answered. cbn [snd done bit]. rewrite (sum_bit c 900 100).
  destruct (N.leb_spec (N.of_nat 100) c), (N.ltb_spec c (N.of_nat (100 + 900))); cbn [andb bit]; lia.
Qed.

Theorem accounted : forall evs ls p m, lives evs ls ->
  number (about p m) ls = N.of_nat (length (times p m evs ls)) + number (fun q => about p m q && inside q) ls /\
  N.of_nat (length (times p m evs ls)) =
    fold_right N.add 0 (map (fun c => number (fun q => about p m q && answered (N.of_nat c) q) ls) (seq 100 900)) +
    number (fun q => about p m q && dropped q) ls + number (fun q => about p m q && between q) ls.
Proof.
  intros evs ls p m H. pose proof (accounting evs ls p m H) as A. split; [exact A|]. rewrite <- (codes_sum evs ls p m H).
  pose proof (kinds ls p m) as K. lia.
Qed.

(** ** Status codes and thresholds *)

Theorem status_codes : forall bd,
  (forall c, 100 <= c <= 999 -> exists i, status_encode bd c = Done i /\ i < status_cardinality /\ status_decode bd i = Done c) /\
  (forall i, i < status_cardinality -> exists c, status_decode bd i = Done c /\ 100 <= c <= 999 /\ status_encode bd c = Done i) /\
  (forall c, status_visit c = LInt (Z.of_N c)).
Proof.
  intros bd. change status_cardinality with 900.
  assert (E : forall c, 100 <= c <= 999 -> status_encode bd c = Done (c - 100)).
  { intros c B. unfold status_encode. destruct bd.
    - destruct (N.leb_spec 100 c); [reflexivity|lia].
    - f_equal. replace (c + W64 - 100) with (c - 100 + 1 * W64) by (unfold W64; lia). rewrite N.mod_add by discriminate. apply N.mod_small. unfold W64. lia. }
  assert (D : forall i, i < 900 -> status_decode bd i = Done (i + 100)).
  { intros i B. unfold status_decode. change (2 ^ 16) with 65536. destruct (N.ltb_spec i 65536); [|lia].
    assert (H100 : http_from_u16 (i + 100) = Some (i + 100)).
    { unfold http_from_u16. destruct (N.leb_spec 100 (i + 100)), (N.leb_spec (i + 100) 999); try lia. reflexivity. }
    destruct bd.
    - destruct (N.ltb_spec (i + 100) 65536); [|lia]. cbn [obind]. now rewrite H100.
    - rewrite N.mod_small by lia. cbn [obind]. now rewrite H100. }
  split; [|split].
  - intros c B. exists (c - 100). split; [now apply E|]. split; [lia|]. rewrite D by lia. f_equal. lia.
  - intros i B. exists (i + 100). split; [now apply D|]. split; [lia|]. rewrite E by lia. f_equal. lia.
  - reflexivity.
Qed.

Theorem thresholds : forall powi, powi_exact powi -> app_thresholds powi = Done doubling /\
  Forall (fun t => f_le t 4614613358185178726 = true) doubling.
Proof.
  intros powi H. split; [now apply thresholds_made|]. unfold doubling. cbn [seq map]. repeat (apply Forall_cons; [vm_compute; reflexivity|]). apply Forall_nil.
Qed.
