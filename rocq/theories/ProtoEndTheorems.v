(** Calls on a metric vec and what a protobuf scrape reports (C65). *)
From Coq Require Import String List NArith ZArith Bool Lia Permutation SpecFloat.
From Verif Require Import Base BaseFacts Writer NameModel NameSpec LabelModel LabelSpec LabelProofs GroupProofs LawProofs VecModel VecSpec VecProofs VecTheorems
  FloatModel FloatFacts FloatOrder FloatArith EncoderModel FamilyModel TextModel TextSpec EncoderSpec MetricModel MetricSpec MetricProofs MetricTheorems FloatAccuracy
  ScrapeSpec ScrapeProofs ScrapeTheorems ScrapeVec CallModel EndSpec EndProofs EndTheorems ProtoModel ProtoSpec ProtoProofs ProtoTheorems ProtoErrors ProtoEndSpec.
Import ListNotations.
Local Open Scope N_scope.

(** ** Doubles for integers *)

Lemma of_Z_near : forall z, (0 <= z <= 2 ^ 64)%Z ->
  (2 ^ 53 * Z.abs (fv (f_of_Z z) - z * 2 ^ SC) <= z * 2 ^ SC)%Z.
Proof.
  intros z B. rewrite fv_of_Z. destruct (Z.eq_dec z 0) as [->|NZ]; [reflexivity|]. apply RV_error.
  pose proof SC_eq as HSC. pose proof (pow_pos' SC ltac:(lia)) as PS. pose proof (pow_pos' (SC - 1022) ltac:(lia)) as PL.
  assert (LOW : (2 ^ (SC - 1022) <= 1 * 2 ^ SC)%Z) by (rewrite Z.mul_1_l; apply Z.pow_le_mono_r; lia).
  assert (HIGH : (2 ^ 64 * 2 ^ SC <= top)%Z) by (unfold top; rewrite <- Z.pow_add_r by lia; apply Z.pow_le_mono_r; lia).
  assert (X : (1 * 2 ^ SC <= z * 2 ^ SC)%Z) by (apply Z.mul_le_mono_nonneg_r; lia).
  assert (Y : (z * 2 ^ SC <= 2 ^ 64 * 2 ^ SC)%Z) by (apply Z.mul_le_mono_nonneg_r; lia).
  split; [eapply Z.le_trans; [exact LOW|exact X]|eapply Z.le_trans; [exact Y|exact HIGH]].
Qed.

Lemma RV_opp : forall V, RV (- V) = (- RV V)%Z.
Proof.
  intros V. unfold RV. destruct (Z.ltb_spec V 0), (Z.ltb_spec (- V) 0); try lia.
  - rewrite Z.opp_involutive. reflexivity.
  - assert (V = 0)%Z by lia. subst V. reflexivity.
Qed.

Lemma of_Z_opp : forall z, fv (f_of_Z (- z)) = (- fv (f_of_Z z))%Z.
Proof. intros z. rewrite !fv_of_Z, Z.mul_opp_l. apply RV_opp. Qed.

Lemma of_Z_int_double : forall z, (- 2 ^ 64 <= z <= 2 ^ 64)%Z -> int_double z (f_of_Z z).
Proof.
  assert (FIN : forall z, FloatOrder.finite (f_decode (f_of_Z z)) -> FloatOrder.finite (f_decode (f_of_Z (- z)))).
  { intros z F. apply finite_iff_val; [apply decode_canon|apply f_of_Z_not_nan|].
    apply finite_iff_val in F; [|apply decode_canon|apply f_of_Z_not_nan].
    change (sval (f_decode (f_of_Z (- z)))) with (fv (f_of_Z (- z))). rewrite of_Z_opp. unfold fv. lia. }
  intros z B. split; [|split].
  - apply decode_finite. destruct (Z.le_gt_cases 0 z) as [P|P].
    + apply of_Z_finite. lia.
    + rewrite <- (Z.opp_involutive z). apply FIN, of_Z_finite. lia.
  - destruct (Z.le_gt_cases 0 z) as [P|P].
    + rewrite (Z.abs_eq z) by exact P. apply of_Z_near. lia.
    + pose proof (of_Z_near (- z) ltac:(lia)) as H. rewrite of_Z_opp in H. rewrite (Z.abs_neq z) by lia.
      replace (fv (f_of_Z z) - z * 2 ^ SC)%Z with (- (- fv (f_of_Z z) - - z * 2 ^ SC))%Z by ring. rewrite Z.abs_opp. exact H.
  - intros S. apply small_exact. lia.
Qed.

(** ** Families with samples *)

Lemma with_samples_split : forall pre r post, rf_samples r <> [] ->
  with_samples (pre ++ r :: post) = with_samples pre ++ r :: with_samples post.
Proof.
  intros pre r post N. unfold with_samples. rewrite filter_app. cbn [filter]. destruct (rf_samples r); [contradiction|reflexivity].
Qed.

Section Kinds.
  Variable heck : rename_all -> bytes -> bytes.
  Variable ryu : f64 -> bytes.

  (** What the vec holds after calls which do what [step] says. *)
  Lemma updates_collected : forall {A M} bd (W : world (derived_lgset bd) M) (step : M -> A -> M), world_ok W ->
    forall p s v (calls : list (call (derived_lgset bd) M)) v' l, constructed W p s v -> sound_set s ->
    Forall (well_shaped s) (map fst l) -> run_calls W calls v = Done v' ->
    Forall2 (fun q c => exists ex f, c = @Update (derived_lgset bd) M ex (fst q) f /\
      forall ys zs, given (fst q) l = ys ++ snd q :: zs -> f (fold_left step ys (w_default W)) = Done (fold_left step (ys ++ [snd q]) (w_default W))) l calls ->
    exists held, vec_samples (derived_lgset bd) M (w_iter W) v' = Done held /\ NoDup (map fst held) /\
      (forall g, In g (map fst held) <-> In g (map fst l)) /\
      Forall (fun q => snd q = fold_left step (given (fst q) l) (w_default W) /\ group_shown heck s (fst q) (group_visit heck s (fst q))) held.
  Proof.
    intros A M bd W step WOK p s v calls v' l C OK T R F.
    pose proof (updates_after (w_geqb W) (wo_geqb W WOK) (storage_of v) (w_default W) step l calls F) as AF.
    assert (CG : map call_group calls = map fst l).
    { clear - F. induction F as [|q c l' calls' (ex & f & -> & _) F' IH]; [reflexivity|]. cbn [map call_group]. now rewrite IH. }
    rewrite <- CG in T.
    pose proof (derived_lawful_sound bd) as LAW.
    destruct (calls_collected LAW W WOK p s v calls v' C OK T R) as (held & VS & ND & IN).
    destruct (run_program W calls v [] v' R) as (c & os & E & V & _). cbn [length] in E.
    assert (T' : @typed_ops (derived_lgset bd) M well_shaped s (program 0 calls)).
    { intros g I. apply program_lookups in I. rewrite Forall_forall in T. now apply T. }
    destruct (vec_groups bd M W WOK p s v (program 0 calls) c os C OK T' E) as (held' & VS' & _ & SE & SO & MEM).
    rewrite V in VS', MEM, SE, SO. rewrite VS in VS'. injection VS' as <-.
    assert (SOME : forall g, after (w_geqb W) (storage_of v) (w_default W) calls g <> None <-> In g (map fst l)).
    { intros g. rewrite (AF g). apply made_some. }
    exists held. split; [exact VS|]. split; [exact ND|]. split.
    - intros g. rewrite in_map_iff, <- SOME. split.
      + intros ([g' m] & <- & I). apply IN in I. cbn [fst]. intros X. rewrite X in I. discriminate.
      + intros N. destruct (after (w_geqb W) (storage_of v) (w_default W) calls g) as [m|] eqn:RR; [|contradiction]. exists (g, m). split; [reflexivity|]. now apply IN.
    - apply Forall_forall. intros [g m] I. cbn [fst snd]. split.
      + apply IN in I. rewrite (AF g) in I. unfold made in I. destruct (given g l); congruence.
      + rewrite Forall_forall in MEM. apply (set_ext_shown heck s _ g _ SE).
        rewrite <- (set_ext_visit heck _ _ g SE). apply (visit_exact heck _ g (proj1 SO) (MEM _ I)). reflexivity.
  Qed.

  Lemma updates_reported_proto : forall {A M} bd (W : world (derived_lgset bd) M) (step : M -> A -> M), world_ok W ->
    forall p s v (calls : list (call (derived_lgset bd) M)) v' l, constructed W p s v -> sound_set s ->
    Forall (well_shaped s) (map fst l) -> run_calls W calls v = Done v' -> l <> [] ->
    Forall2 (fun q c => exists ex f, c = @Update (derived_lgset bd) M ex (fst q) f /\
      forall ys zs, given (fst q) l = ys ++ snd q :: zs -> f (fold_left step ys (w_default W)) = Done (fold_left step (ys ++ [snd q]) (w_default W))) l calls ->
    forall k read, k <> KHistogram -> (forall m, metric_kind (read m) = k) ->
    (forall g, In g (map fst l) -> bits_ok (read (fold_left step (given g l) (w_default W)))) ->
    forall shows : group_val -> labels -> pmetric -> Prop,
    (forall g ls pm, In g (map fst l) ->
       sample_shows ryu (fun z x => x = f_of_Z z) (ls, read (fold_left step (given g l) (w_default W))) pm -> shows g ls pm) ->
    forall G nss base help r pre post w,
    family_content nss base help (vec_family (derived_lgset bd) M (w_iter W) (group_visit heck s) k read v') = Some r ->
    group_families [] G (pre ++ r :: post) -> Forall rf_ok (pre ++ post) -> Forall rf_bits_ok (pre ++ post) ->
    ~ misleading (pre ++ r :: post) -> reliable w -> w_out w = [] ->
    reported_proto ryu bd G w (full_name nss base []) help k (map fst l)
      (fun g pm => exists ls, group_shown heck s g ls /\ shows g ls pm).
  Proof.
    intros A M bd W step WOK p s v calls v' l C OK T R NE F k read KH K BO shows SH G nss base help r pre post w FC GF RO RB MIS RW WO.
    destruct (updates_collected bd W step WOK p s v calls v' l C OK T R F) as (held & VS & ND & IN & ALL).
    unfold vec_family in FC. rewrite VS in FC. cbn [obind family_content] in FC. injection FC as <-.
    set (r := {| rf_namespaces := nss; rf_base := base; rf_help := help; rf_kind := Some k;
                 rf_samples := map (fun q => (group_visit heck s (fst q), read (snd q))) held |}) in *.
    assert (HN : rf_samples r <> []).
    { cbn [r rf_samples]. destruct held as [|q held']; [|discriminate]. destruct l as [|[g x] l']; [contradiction|].
      destruct (proj2 (IN g)). now left. }
    apply Forall_app in RO as [RO1 RO2]. apply Forall_app in RB as [RB1 RB2].
    rewrite Forall_forall in ALL.
    destruct (proto_round_trip ryu bd [G] [pre ++ r :: post] w) as (st & E & D); try assumption.
    - constructor; [exact GF|constructor].
    - cbn [concat]. rewrite app_nil_r. apply Forall_app. split; [exact RO1|]. constructor; [|exact RO2].
      split; [exact KH|]. apply Forall_map, Forall_forall. intros q _. apply K.
    - cbn [concat]. rewrite app_nil_r. apply Forall_app. split; [exact RB1|]. constructor; [|exact RB2].
      unfold rf_bits_ok. cbn [r rf_samples]. apply Forall_map, Forall_forall. intros q I. cbn [snd].
      destruct (ALL q I) as [-> _]. apply BO, IN. now apply in_map.
    - cbn [concat]. now rewrite app_nil_r.
    - exists st. split; [exact E|]. intros L. destruct (D L) as (ps & RS & F2). cbn [concat] in F2. rewrite app_nil_r in F2.
      rewrite with_samples_split in F2 by exact HN.
      apply Forall2_app_inv_l in F2 as (before & rest & _ & F2 & ->). inversion F2 as [|? pf ? behind FS _]; subst.
      destruct FS as (N1 & N2 & N3 & N4).
      exists before, pf, behind, (map fst held). split; [exact RS|]. split; [exact N1|]. split; [exact N2|]. split; [exact N3|]. split; [exact ND|].
      split; [exact IN|]. cbn [r rf_samples] in N4.
      assert (X : forall h ms, incl h held ->
        Forall2 (sample_shows ryu (fun z x => x = f_of_Z z)) (map (fun q => (group_visit heck s (fst q), read (snd q))) h) ms ->
        Forall2 (fun g pm => exists ls, group_shown heck s g ls /\ shows g ls pm) (map fst h) ms).
      { induction h as [|q h IH]; intros ms SUB FM; inversion FM; subst; cbn [map]; constructor.
        - destruct (ALL q (SUB q (or_introl eq_refl))) as [EV GS]. exists (group_visit heck s (fst q)). split; [exact GS|].
          apply SH; [apply IN, in_map, SUB; now left|]. match goal with H : sample_shows _ _ _ _ |- _ => rewrite EV in H; exact H end.
        - apply IH; [intros ? ?; apply SUB; now right|assumption]. }
      apply (X held); [apply incl_refl|exact N4].
  Qed.

  Theorem counter_vec_proto : forall bd (W : world (derived_lgset bd) N), world_ok W -> w_default W = 0 ->
    forall p s v (calls : list (call (derived_lgset bd) N)) v' (l : list (group_val * N)), constructed W p s v -> sound_set s ->
    Forall (well_shaped s) (map fst l) -> Forall2 (@counts (derived_lgset bd) bd) l calls -> run_calls W calls v = Done v' -> l <> [] ->
    (forall g, fold_right N.add 0 (given g l) < 2 ^ 64) ->
    forall G nss base help r pre post w,
    family_content nss base help (vec_family (derived_lgset bd) N (w_iter W) (group_visit heck s) KCounter MCounter v') = Some r ->
    group_families [] G (pre ++ r :: post) -> Forall rf_ok (pre ++ post) -> Forall rf_bits_ok (pre ++ post) ->
    ~ misleading (pre ++ r :: post) -> reliable w -> w_out w = [] ->
    reported_proto ryu bd G w (full_name nss base []) help KCounter (map fst l)
      (fun g pm => exists ls, group_shown heck s g ls /\ counter_shown ryu ls (fold_right N.add 0 (given g l)) pm).
  Proof.
    intros bd W WOK D p s v calls v' l C OK T F R NE B G nss base help r pre post w FC GF RO RB MIS RW WO.
    refine (updates_reported_proto bd W N.add WOK p s v calls v' l C OK T R NE _ KCounter MCounter _ (fun _ => eq_refl) _
      (fun g ls pm => counter_shown ryu ls (fold_right N.add 0 (given g l)) pm) _ G nss base help r pre post w FC GF RO RB MIS RW WO).
    - eapply Forall2_impl_in; [|exact F]. intros q c I H.
      assert (X : forall ys zs, given (fst q) l = ys ++ snd q :: zs ->
        wrap64 (fold_left N.add ys (w_default W) + snd q) = fold_left N.add (ys ++ [snd q]) (w_default W) /\
        u_add bd (fold_left N.add ys (w_default W)) (snd q) = Done (fold_left N.add (ys ++ [snd q]) (w_default W))).
      { intros ys zs E. pose proof (given_sum_prefix _ _ _ _ _ E) as P. specialize (B (fst q)).
        rewrite !fold_sum, !sum_app, D. cbn [fold_right].
        assert (S : fold_right N.add 0 ys + snd q < W64) by (eapply N.le_lt_trans; [exact P|exact B]).
        rewrite !N.add_0_l, N.add_0_r. split; [now apply N.mod_small|]. unfold u_add. destruct bd.
        - destruct (N.ltb_spec (fold_right N.add 0 ys + snd q) W64); [reflexivity|lia].
        - now rewrite N.mod_small. }
      destruct H as [->|[->|[O [->| ->]]]]; eexists _, _; (split; [reflexivity|]); intros ys zs E; destruct (X ys zs E) as [X1 X2].
      + unfold counter_inc_by. now rewrite X1.
      + exact X2.
      + unfold counter_inc, counter_inc_by. rewrite <- X1. now rewrite O.
      + unfold counter_inc_mut, counter_inc_by_mut. rewrite <- X2. now rewrite O.
    - discriminate.
    - intros g _. exact I.
    - intros g ls pm _ [SL SM]. cbn [fst snd] in SL, SM. rewrite fold_sum, D, N.add_0_l in SM.
      destruct SM as (GN & x & CN & ->). split; [exact SL|]. split; [exact GN|]. exists (f_of_Z (Z.of_N (fold_right N.add 0 (given g l)))). split; [exact CN|].
      apply of_Z_int_double. specialize (B g). set (t := fold_right N.add 0 (given g l)) in *. clearbody t.
      change (2 ^ 64) with 18446744073709551616 in B. change (2 ^ 64)%Z with 18446744073709551616%Z. lia.
  Qed.

  Theorem gauge_vec_proto : forall bd (W : world (derived_lgset bd) Z), world_ok W -> w_default W = 0%Z ->
    forall p s v v' (l : list (group_val * gauge_op)), constructed W p s v -> sound_set s ->
    Forall (well_shaped s) (map fst l) ->
    run_calls W (map (fun q => @gauge_vec_call (derived_lgset bd) (fst q) (snd q)) l) v = Done v' -> l <> [] ->
    (forall g ys zs, given g l = ys ++ zs -> (- 2 ^ 63 <= fold_left on_integer ys 0 < 2 ^ 63)%Z) ->
    forall G nss base help r pre post w,
    family_content nss base help (vec_family (derived_lgset bd) Z (w_iter W) (group_visit heck s) KGauge MGauge v') = Some r ->
    group_families [] G (pre ++ r :: post) -> Forall rf_ok (pre ++ post) -> Forall rf_bits_ok (pre ++ post) ->
    ~ misleading (pre ++ r :: post) -> reliable w -> w_out w = [] ->
    reported_proto ryu bd G w (full_name nss base []) help KGauge (map fst l)
      (fun g pm => exists ls, group_shown heck s g ls /\ gauge_shown ryu ls (fold_left on_integer (given g l) 0%Z) pm).
  Proof.
    intros bd W WOK D p s v v' l C OK T R NE B G nss base help r pre post w FC GF RO RB MIS RW WO.
    refine (updates_reported_proto bd W on_integer WOK p s v _ v' l C OK T R NE _ KGauge MGauge _ (fun _ => eq_refl) _
      (fun g ls pm => gauge_shown ryu ls (fold_left on_integer (given g l) 0%Z) pm) _ G nss base help r pre post w FC GF RO RB MIS RW WO).
    - rewrite D.
      assert (X : forall l', incl l' l -> Forall2 (fun q c => exists ex f, c = @Update (derived_lgset bd) Z ex (fst q) f /\
        forall ys zs, given (fst q) l = ys ++ snd q :: zs -> f (fold_left on_integer ys 0%Z) = Done (fold_left on_integer (ys ++ [snd q]) 0%Z))
        l' (map (fun q => @gauge_vec_call (derived_lgset bd) (fst q) (snd q)) l')).
      { induction l' as [|q l' IH]; intros SUB; cbn [map]; constructor; [|apply IH; intros x I; apply SUB; now right].
        destruct q as [gq op]. cbn [fst snd]. eexists _, _. split; [reflexivity|]. intros ys zs E. f_equal. rewrite fold_left_app. cbn [fold_left].
        pose proof (B gq (ys ++ [op]) zs) as P. rewrite <- app_assoc in P. specialize (P E). rewrite fold_left_app in P. cbn [fold_left] in P.
        destruct op; cbn [gauge_shared on_integer] in *; try (now rewrite to_i64_small); reflexivity. }
      apply X, incl_refl.
    - discriminate.
    - intros g _. exact I.
    - intros g ls pm _ [SL SM]. cbn [fst snd] in SL, SM. rewrite D in SM.
      destruct SM as (GN & x & CN & ->). split; [exact SL|]. split; [exact GN|]. eexists. split; [exact CN|].
      apply of_Z_int_double. pose proof (B g (given g l) [] ltac:(now rewrite app_nil_r)) as H.
      set (t := fold_left on_integer (given g l) 0%Z) in *. clearbody t.
      change (2 ^ 63)%Z with 9223372036854775808%Z in H. change (2 ^ 64)%Z with 18446744073709551616%Z. lia.
  Qed.

  Theorem float_gauge_vec_proto : forall bd (W : world (derived_lgset bd) N), world_ok W -> w_default W = 0 ->
    forall p s v v' (l : list (group_val * fgauge_op)), constructed W p s v -> sound_set s ->
    Forall (well_shaped s) (map fst l) ->
    run_calls W (map (fun q => @float_gauge_vec_call (derived_lgset bd) (fst q) (snd q)) l) v = Done v' -> l <> [] ->
    (forall g y, In (g, FSet y) l -> y < 2 ^ 64) ->
    forall G nss base help r pre post w,
    family_content nss base help (vec_family (derived_lgset bd) N (w_iter W) (group_visit heck s) KFloatGauge MFloatGauge v') = Some r ->
    group_families [] G (pre ++ r :: post) -> Forall rf_ok (pre ++ post) -> Forall rf_bits_ok (pre ++ post) ->
    ~ misleading (pre ++ r :: post) -> reliable w -> w_out w = [] ->
    reported_proto ryu bd G w (full_name nss base []) help KFloatGauge (map fst l)
      (fun g pm => exists ls, group_shown heck s g ls /\ float_gauge_shown ryu ls (fold_left on_float (given g l) 0) pm).
  Proof.
    intros bd W WOK D p s v v' l C OK T R NE B G nss base help r pre post w FC GF RO RB MIS RW WO.
    refine (updates_reported_proto bd W on_float WOK p s v _ v' l C OK T R NE _ KFloatGauge MFloatGauge _ (fun _ => eq_refl) _
      (fun g ls pm => float_gauge_shown ryu ls (fold_left on_float (given g l) 0) pm) _ G nss base help r pre post w FC GF RO RB MIS RW WO).
    - rewrite D.
      assert (X : forall l', Forall2 (fun q c => exists ex f, c = @Update (derived_lgset bd) N ex (fst q) f /\
        forall ys zs, given (fst q) l = ys ++ snd q :: zs -> f (fold_left on_float ys 0) = Done (fold_left on_float (ys ++ [snd q]) 0))
        l' (map (fun q => @float_gauge_vec_call (derived_lgset bd) (fst q) (snd q)) l')).
      { induction l' as [|q l' IH]; cbn [map]; constructor; [|exact IH].
        destruct q as [gq op]. cbn [fst snd]. eexists _, _. split; [reflexivity|]. intros ys zs E. f_equal. rewrite fold_left_app. cbn [fold_left].
        destruct op; cbn [fgauge_shared on_float]; rewrite ?f_sub_add; reflexivity. }
      apply X.
    - discriminate.
    - intros g I. cbn [bits_ok]. rewrite D.
      assert (X : forall ops a, a < 2 ^ 64 -> (forall y, In (FSet y) ops -> y < 2 ^ 64) -> fold_left on_float ops a < 2 ^ 64).
      { induction ops as [|op ops IH]; intros a A H; [exact A|]. cbn [fold_left]. apply IH; [|intros y J; apply H; now right].
        destruct op; cbn [on_float]; rewrite ?f_sub_add; try apply f_add_bound. apply H. now left. }
      apply X; [reflexivity|]. intros y J. unfold given in J. apply in_map_iff in J as ([h op] & EO & J). cbn [snd] in EO. subst op.
      apply filter_In in J as [J _]. exact (B _ _ J).
    - intros g ls pm _ [SL SM]. cbn [fst snd] in SL, SM. rewrite D in SM.
      destruct SM as (GN & CN). split; [exact SL|]. split; [exact GN|]. exact CN.
  Qed.
End Kinds.
