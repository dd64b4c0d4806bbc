(** Scrapes of counter, gauge and histogram vecs (C62). *)
From Coq Require Import String List NArith ZArith Bool Lia Permutation.
From Verif Require Import Base BaseFacts Writer NameModel NameSpec LabelModel LabelSpec LabelProofs GroupProofs LawProofs VecModel VecSpec VecProofs VecTheorems
  FloatModel FloatFacts FloatArith EncoderModel FamilyModel TextModel TextSpec EncoderSpec EncoderProofs TextTheorems MetricModel MetricSpec MetricProofs MetricTheorems HistTheorems
  ScrapeSpec ScrapeProofs ScrapeTheorems ScrapeVec CallModel EndSpec EndProofs.
Import ListNotations.
Local Open Scope N_scope.

(** ** Updates only *)

Section Updates.
  Context {A M : Type} {bd : build}.
  Variable geqb : group_val -> group_val -> bool.
  Hypothesis GEQ : forall a b, geqb a b = true <-> a = b.
  Variable k : storage.
  Variable d : M.
  Variable step : M -> A -> M.

  Definition made (xs : list A) : option M := match xs with [] => None | _ => Some (fold_left step xs d) end.

  Lemma given_app : forall g (l1 l2 : list (group_val * A)), given g (l1 ++ l2) = given g l1 ++ given g l2.
  Proof. intros. unfold given. now rewrite filter_app, map_app. Qed.
  Lemma given_cons : forall g (p : group_val * A) l, given g (p :: l) = (if group_val_eqb (fst p) g then [snd p] else []) ++ given g l.
  Proof. intros g p l. unfold given. cbn [filter]. now destruct (group_val_eqb (fst p) g). Qed.
  Lemma geqb_same : forall a b, geqb a b = group_val_eqb a b.
  Proof. intros a b. apply eq_true_iff_eq. rewrite GEQ, group_val_eqb_spec. reflexivity. Qed.

  Lemma updates_after : forall l (calls : list (call (derived_lgset bd) M)),
    Forall2 (fun p c => exists ex f, c = @Update (derived_lgset bd) M ex (fst p) f /\
      forall ys zs, given (fst p) l = ys ++ snd p :: zs -> f (fold_left step ys d) = Done (fold_left step (ys ++ [snd p]) d)) l calls ->
    forall g, @after (derived_lgset bd) M geqb k d calls g = made (given g l).
  Proof.
    intros l calls F g. unfold after.
    assert (X : forall l2 calls2 l1, l = l1 ++ l2 ->
      Forall2 (fun p c => exists ex f, c = @Update (derived_lgset bd) M ex (fst p) f /\
        forall ys zs, given (fst p) l = ys ++ snd p :: zs -> f (fold_left step ys d) = Done (fold_left step (ys ++ [snd p]) d)) l2 calls2 ->
      fold_left (@call_effect (derived_lgset bd) M geqb k d g) calls2 (made (given g l1)) = made (given g l)).
    { clear F calls. induction l2 as [|p l2 IH]; intros calls2 l1 E F; inversion F as [|? c ? calls3 (ex & f & -> & H) F']; subst.
      - now rewrite app_nil_r.
      - cbn [fold_left call_effect]. rewrite geqb_same.
        assert (Y : (if group_val_eqb (fst p) g then match f match made (given g l1) with Some m => m | None => d end with
                     | Done m => Some m | Panic => made (given g l1) end else made (given g l1)) = made (given g (l1 ++ [p]))).
        { rewrite given_app, given_cons. cbn [given filter map]. rewrite app_nil_r.
          destruct (group_val_eqb (fst p) g) eqn:G; [|now rewrite app_nil_r].
          apply group_val_eqb_spec in G. subst g.
          assert (Z : match made (given (fst p) l1) with Some m => m | None => d end = fold_left step (given (fst p) l1) d).
          { unfold made. destruct (given (fst p) l1); reflexivity. }
          rewrite Z, (H (given (fst p) l1) (given (fst p) l2)).
          - unfold made. destruct (given (fst p) l1); reflexivity.
          - rewrite given_app, given_cons. pose proof (proj2 (group_val_eqb_spec (fst p) (fst p)) eq_refl) as GG.
            match goal with |- context [if ?b then _ else _] => replace b with true by (symmetry; exact GG) end. reflexivity. }
        etransitivity; [apply f_equal; exact Y|]. apply IH; [now rewrite <- app_assoc|exact F']. }
    exact (X l calls [] eq_refl F).
  Qed.

  Lemma made_some : forall g (l : list (group_val * A)), made (given g l) <> None <-> In g (map fst l).
  Proof.
    intros g l. unfold made. split.
    - intros H. destruct (given g l) as [|x xs] eqn:E; [now contradiction H|]. 
      assert (I : In x (given g l)) by (rewrite E; now left). unfold given in I. apply in_map_iff in I. destruct I as ([h y] & _ & I).
      apply filter_In in I. destruct I as [I G]. apply group_val_eqb_spec in G. cbn [fst] in G. subst h. apply in_map_iff. now exists (g, y).
    - intros I. apply in_map_iff in I. destruct I as ([h y] & E & I). cbn [fst] in E. subst h.
      assert (J : In y (given g l)). { unfold given. apply in_map_iff. exists (g, y). split; [reflexivity|]. apply filter_In. split; [exact I|]. now apply group_val_eqb_spec. }
      destruct (given g l); [destruct J|discriminate].
  Qed.
End Updates.

Lemma Forall2_impl_in : forall {A B} (P Q : A -> B -> Prop) l m, (forall a b, In a l -> P a b -> Q a b) -> Forall2 P l m -> Forall2 Q l m.
Proof.
  intros A B P Q l m H F. induction F as [|a b l m X F IH]; constructor; [apply H; [now left|exact X]|]. apply IH. intros; apply H; [now right|assumption].
Qed.

Lemma fold_sum : forall l a, fold_left N.add l a = a + fold_right N.add 0 l.
Proof. induction l as [|x l IH]; intros a; cbn; [lia|]. rewrite IH. lia. Qed.
Lemma sum_app : forall a b, fold_right N.add 0 (a ++ b) = fold_right N.add 0 a + fold_right N.add 0 b.
Proof. induction a as [|x a IH]; intros b; cbn; [lia|]. rewrite IH. lia. Qed.

Lemma given_sum_prefix : forall g (l : list (group_val * N)) ys x zs, given g l = ys ++ x :: zs ->
  fold_right N.add 0 ys + x <= fold_right N.add 0 (given g l).
Proof. intros g l ys x zs ->. rewrite sum_app. cbn [fold_right]. lia. Qed.

Section Kinds.
  Variable heck : rename_all -> bytes -> bytes.
  Variable ryu : f64 -> bytes.
  Hypothesis RY : float_text_ok ryu.

  (** Any vec whose calls do what [step] says. *)
  Lemma updates_reported : forall {A M} bd (W : world (derived_lgset bd) M) (step : M -> A -> M), world_ok W ->
    forall p s v (calls : list (call (derived_lgset bd) M)) v' l, constructed W p s v -> sound_set s ->
    Forall (well_shaped s) (map fst l) -> run_calls W calls v = Done v' ->
    Forall2 (fun q c => exists ex f, c = @Update (derived_lgset bd) M ex (fst q) f /\
      forall ys zs, given (fst q) l = ys ++ snd q :: zs -> f (fold_left step ys (w_default W)) = Done (fold_left step (ys ++ [snd q]) (w_default W))) l calls ->
    forall k read, (forall m, metric_kind (read m) = k) -> Forall (fun f => valid_label_name (field_label f)) s ->
    (forall g, In g (map fst l) -> metric_in_range (read (fold_left step (given g l) (w_default W)))) ->
    forall lines_of : group_val -> labels -> list item -> Prop,
    forall G nss base pre post w,
    (forall g ls part, In g (map fst l) -> metric_lines ryu nss base ls (read (fold_left step (given g l) (w_default W))) part -> lines_of g ls part) ->
    group_events [] G (pre ++ family_events nss base (vec_family (derived_lgset bd) M (w_iter W) (group_visit heck s) k read v') ++ post) ->
    Forall event_ok (pre ++ post) -> Forall valid_metric_name (base :: nss) -> reliable w ->
    exists st out items before lines behind gs,
      collect_group (text_encoder ryu bd) G (text_new w) = (st, ROk) /\ w_out (te_writer st) = w_out w ++ out /\
      parse out = Some items /\ filter meaningful items = before ++ lines ++ behind /\
      NoDup gs /\ (forall g, In g gs <-> In g (map fst l)) /\
      family_lines (full_name nss base []) k (fun g part => exists ls, group_shown heck s g ls /\ lines_of g ls part) gs lines.
  Proof.
    intros A M bd W step WOK p s v calls v' l C OK T R F k read K LV RG lines_of G nss base pre post w LO GE EV NM RW.
    pose proof (updates_after (w_geqb W) (wo_geqb W WOK) (storage_of v) (w_default W) step l calls F) as AF.
    assert (CG : map call_group calls = map fst l).
    { clear - F. induction F as [|q c l' calls' (ex & f & -> & _) F' IH]; [reflexivity|]. cbn [map call_group]. now rewrite IH. }
    assert (SOME : forall g, after (w_geqb W) (storage_of v) (w_default W) calls g <> None <-> In g (map fst l)).
    { intros g. rewrite (AF g). apply made_some. }
    assert (VAL : forall g m, after (w_geqb W) (storage_of v) (w_default W) calls g = Some m -> In g (map fst l) /\ m = fold_left step (given g l) (w_default W)).
    { intros g m E. split; [apply SOME; congruence|]. rewrite (AF g) in E. unfold made in E. destruct (given g l); congruence. }
    destruct (scrape_reports heck ryu bd M W WOK RY p s v calls v' C OK) with (k := k) (read := read) (G := G) (nss := nss) (base := base) (pre := pre) (post := post) (w := w)
      as (st & out & items & before & lines & behind & gs & E1 & E2 & E3 & E4 & ND & IN & (parts & E5 & F5)); try assumption.
    { now rewrite CG. }
    { intros g m E. apply VAL in E as [I ->]. now apply RG. }
    exists st, out, items, before, lines, behind, gs. do 4 (split; [assumption|]). split; [exact ND|].
    split; [intros g; now rewrite IN, SOME|]. exists parts. split; [exact E5|].
    eapply Forall2_impl_in; [|exact F5]. intros g part I (ls & m & SH & E & ML). apply VAL in E as [J ->].
    exists ls. split; [exact SH|]. now apply LO.
  Qed.

  Theorem counter_vec_reported : forall bd (W : world (derived_lgset bd) N), world_ok W -> w_default W = 0 ->
    forall p s v (calls : list (call (derived_lgset bd) N)) v' (l : list (group_val * N)), constructed W p s v -> sound_set s ->
    Forall (well_shaped s) (map fst l) -> Forall2 (@counts (derived_lgset bd) bd) l calls -> run_calls W calls v = Done v' ->
    Forall (fun f => valid_label_name (field_label f)) s -> (forall g, fold_right N.add 0 (given g l) < 2 ^ 63) ->
    forall G nss base pre post w,
    group_events [] G (pre ++ family_events nss base (vec_family (derived_lgset bd) N (w_iter W) (group_visit heck s) KCounter MCounter v') ++ post) ->
    Forall event_ok (pre ++ post) -> Forall valid_metric_name (base :: nss) -> reliable w ->
    reported ryu bd G w (full_name nss base []) KCounter (map fst l)
      (fun g part => exists ls i, group_shown heck s g ls /\ part = [i] /\
         int_sample ryu (full_name nss base []) ls (Z.of_N (fold_right N.add 0 (given g l))) i).
  Proof.
    intros bd W WOK D p s v calls v' l C OK T F R LV B G nss base pre post w GE EV NM RW.
    destruct (updates_reported bd W N.add WOK p s v calls v' l C OK T R) with (k := KCounter) (read := MCounter) (G := G) (nss := nss) (base := base) (pre := pre) (post := post) (w := w)
      (lines_of := fun g ls part => exists i, part = [i] /\ int_sample ryu (full_name nss base []) ls (Z.of_N (fold_right N.add 0 (given g l))) i)
      as (st & out & items & before & lines & behind & gs & E1 & E2 & E3 & E4 & ND & IN & (parts & E5 & F5)); try assumption.
    - eapply Forall2_impl_in; [|exact F]. intros q c I H.
      assert (X : forall ys zs, given (fst q) l = ys ++ snd q :: zs ->
        wrap64 (fold_left N.add ys (w_default W) + snd q) = fold_left N.add (ys ++ [snd q]) (w_default W) /\
        u_add bd (fold_left N.add ys (w_default W)) (snd q) = Done (fold_left N.add (ys ++ [snd q]) (w_default W))).
      { intros ys zs E. pose proof (given_sum_prefix _ _ _ _ _ E) as P. specialize (B (fst q)).
        rewrite !fold_sum, !sum_app, D. cbn [fold_right].
        assert (S : fold_right N.add 0 ys + snd q < W64) by (eapply N.le_lt_trans; [exact P|]; eapply N.lt_trans; [exact B|reflexivity]).
        rewrite !N.add_0_l, N.add_0_r. split; [now apply N.mod_small|]. unfold u_add. destruct bd.
        - destruct (N.ltb_spec (fold_right N.add 0 ys + snd q) W64); [reflexivity|lia].
        - now rewrite N.mod_small. }
      destruct H as [->|[->|[O [->| ->]]]]; eexists _, _; (split; [reflexivity|]); intros ys zs E; destruct (X ys zs E) as [X1 X2].
      + unfold counter_inc_by. now rewrite X1.
      + exact X2.
      + unfold counter_inc, counter_inc_by. rewrite <- X1. now rewrite O.
      + unfold counter_inc_mut, counter_inc_by_mut. rewrite <- X2. now rewrite O.
    - reflexivity.
    - intros g I. cbn [metric_in_range]. rewrite fold_sum, D. apply B.
    - intros g ls part I (i & E & X). exists i. split; [exact E|]. rewrite fold_sum, D in X. exact X.
    - exists st, out, items, before, lines, behind, gs. do 6 (split; [assumption|]). exists parts. split; [exact E5|].
      eapply Forall2_impl_in; [|exact F5]. intros g part I (ls & SH & i & E & X). eauto.
  Qed.

  Theorem gauge_vec_reported : forall bd (W : world (derived_lgset bd) Z), world_ok W -> w_default W = 0%Z ->
    forall p s v v' (l : list (group_val * gauge_op)), constructed W p s v -> sound_set s ->
    Forall (well_shaped s) (map fst l) ->
    run_calls W (map (fun q => @gauge_vec_call (derived_lgset bd) (fst q) (snd q)) l) v = Done v' ->
    Forall (fun f => valid_label_name (field_label f)) s ->
    (forall g ys zs, given g l = ys ++ zs -> (- 2 ^ 63 <= fold_left on_integer ys 0 < 2 ^ 63)%Z) ->
    forall G nss base pre post w,
    group_events [] G (pre ++ family_events nss base (vec_family (derived_lgset bd) Z (w_iter W) (group_visit heck s) KGauge MGauge v') ++ post) ->
    Forall event_ok (pre ++ post) -> Forall valid_metric_name (base :: nss) -> reliable w ->
    reported ryu bd G w (full_name nss base []) KGauge (map fst l)
      (fun g part => exists ls i, group_shown heck s g ls /\ part = [i] /\
         int_sample ryu (full_name nss base []) ls (fold_left on_integer (given g l) 0%Z) i).
  Proof.
    intros bd W WOK D p s v v' l C OK T R LV B G nss base pre post w GE EV NM RW.
    destruct (updates_reported bd W on_integer WOK p s v (map (fun q => @gauge_vec_call (derived_lgset bd) (fst q) (snd q)) l) v' l C OK T R) with (k := KGauge) (read := MGauge) (G := G) (nss := nss) (base := base) (pre := pre) (post := post) (w := w)
      (lines_of := fun g ls part => exists i, part = [i] /\ int_sample ryu (full_name nss base []) ls (fold_left on_integer (given g l) 0%Z) i)
      as (st & out & items & before & lines & behind & gs & E1 & E2 & E3 & E4 & ND & IN & (parts & E5 & F5)); try assumption.
    - rewrite D.
      assert (X : forall l', incl l' l -> Forall2 (fun q c => exists ex f, c = @Update (derived_lgset bd) Z ex (fst q) f /\
        forall ys zs, given (fst q) l = ys ++ snd q :: zs -> f (fold_left on_integer ys 0%Z) = Done (fold_left on_integer (ys ++ [snd q]) 0%Z))
        l' (map (fun q => @gauge_vec_call (derived_lgset bd) (fst q) (snd q)) l')).
      { induction l' as [|q l' IH]; intros SUB; cbn [map]; constructor; [|apply IH; intros x I; apply SUB; now right].
        destruct q as [gq op]. cbn [fst snd]. eexists _, _. split; [reflexivity|]. intros ys zs E. f_equal. rewrite fold_left_app. cbn [fold_left].
        pose proof (B gq (ys ++ [op]) zs) as P. rewrite <- app_assoc in P. specialize (P E). rewrite fold_left_app in P. cbn [fold_left] in P.
        destruct op; cbn [gauge_shared on_integer] in *; try (now rewrite to_i64_small); reflexivity. }
      apply X, incl_refl.
    - reflexivity.
    - intros g I. cbn [metric_in_range]. rewrite D. apply (B g (given g l) []). now rewrite app_nil_r.
    - intros g ls part I (i & E & X). exists i. split; [exact E|]. rewrite D in X. exact X.
    - exists st, out, items, before, lines, behind, gs. do 6 (split; [assumption|]). exists parts. split; [exact E5|].
      eapply Forall2_impl_in; [|exact F5]. intros g part I (ls & SH & i & E & X). eauto.
  Qed.

  Theorem float_gauge_vec_reported : forall bd (W : world (derived_lgset bd) N), world_ok W -> w_default W = 0 ->
    forall p s v v' (l : list (group_val * fgauge_op)), constructed W p s v -> sound_set s ->
    Forall (well_shaped s) (map fst l) ->
    run_calls W (map (fun q => @float_gauge_vec_call (derived_lgset bd) (fst q) (snd q)) l) v = Done v' ->
    Forall (fun f => valid_label_name (field_label f)) s ->
    (forall g y, In (g, FSet y) l -> y < 2 ^ 64) ->
    forall G nss base pre post w,
    group_events [] G (pre ++ family_events nss base (vec_family (derived_lgset bd) N (w_iter W) (group_visit heck s) KFloatGauge MFloatGauge v') ++ post) ->
    Forall event_ok (pre ++ post) -> Forall valid_metric_name (base :: nss) -> reliable w ->
    reported ryu bd G w (full_name nss base []) KFloatGauge (map fst l)
      (fun g part => exists ls i, group_shown heck s g ls /\ part = [i] /\
         float_sample ryu (full_name nss base []) ls (fold_left on_float (given g l) 0) i).
  Proof.
    intros bd W WOK D p s v v' l C OK T R LV B G nss base pre post w GE EV NM RW.
    destruct (updates_reported bd W on_float WOK p s v (map (fun q => @float_gauge_vec_call (derived_lgset bd) (fst q) (snd q)) l) v' l C OK T R) with (k := KFloatGauge) (read := MFloatGauge) (G := G) (nss := nss) (base := base) (pre := pre) (post := post) (w := w)
      (lines_of := fun g ls part => exists i, part = [i] /\ float_sample ryu (full_name nss base []) ls (fold_left on_float (given g l) 0) i)
      as (st & out & items & before & lines & behind & gs & E1 & E2 & E3 & E4 & ND & IN & (parts & E5 & F5)); try assumption.
    - rewrite D.
      assert (X : forall l', Forall2 (fun q c => exists ex f, c = @Update (derived_lgset bd) N ex (fst q) f /\
        forall ys zs, given (fst q) l = ys ++ snd q :: zs -> f (fold_left on_float ys 0) = Done (fold_left on_float (ys ++ [snd q]) 0))
        l' (map (fun q => @float_gauge_vec_call (derived_lgset bd) (fst q) (snd q)) l')).
      { induction l' as [|q l' IH]; cbn [map]; constructor; [|exact IH].
        destruct q as [gq op]. cbn [fst snd]. eexists _, _. split; [reflexivity|]. intros ys zs E. f_equal. rewrite fold_left_app. cbn [fold_left].
        destruct op; cbn [fgauge_shared on_float]; rewrite ?f_sub_add; reflexivity. }
      apply X.
    - reflexivity.
    - intros g I. cbn [metric_in_range]. rewrite D.
      assert (X : forall ops a, a < 2 ^ 64 -> (forall y, In (FSet y) ops -> y < 2 ^ 64) -> fold_left on_float ops a < 2 ^ 64).
      { induction ops as [|op ops IH]; intros a A H; [exact A|]. cbn [fold_left]. apply IH; [|intros y J; apply H; now right].
        destruct op; cbn [on_float]; rewrite ?f_sub_add; try apply f_add_bound. apply H. now left. }
      apply X; [reflexivity|]. intros y J. unfold given in J. apply in_map_iff in J as ([h op] & EO & J). cbn [snd] in EO. subst op.
      apply filter_In in J as [J _]. exact (B _ _ J).
    - intros g ls part I (i & E & X). exists i. split; [exact E|]. rewrite D in X. exact X.
    - exists st, out, items, before, lines, behind, gs. do 6 (split; [assumption|]). exists parts. split; [exact E5|].
      eapply Forall2_impl_in; [|exact F5]. intros g part I (ls & SH & i & E & X). eauto.
  Qed.

  Definition observe_step (sv : std_version) (ts : list f64) (h : hist) (x : f64) : hist :=
    match guard_observe sv ts x h with Done h' => h' | Panic => h end.

  Lemma observe_steps : forall sv ts xs h, length (h_buckets h) = length ts ->
    observe_all sv ts xs h = Done (fold_left (observe_step sv ts) xs h) /\
    length (h_buckets (fold_left (observe_step sv ts) xs h)) = length ts.
  Proof.
    intros sv ts. induction xs as [|x xs IH]; intros h LH; [auto|]. cbn [observe_all fold_left].
    destruct (observe_total sv ts x h LH) as (h' & E). unfold observe_step at 2 4. rewrite E. cbn [obind]. apply IH.
    now rewrite (guard_observe_length _ _ _ _ _ E).
  Qed.

  Theorem histogram_vec_reported : forall bd (W : world (derived_lgset bd) hist) sv ts, world_ok W -> w_default W = hist_new (length ts) ->
    with_buckets bd ts = Done ts -> Forall (fun t => t < 2 ^ 64) ts -> (forall t, ts = [t] -> f_is_nan t = false) ->
    forall p s v (calls : list (call (derived_lgset bd) hist)) v' (l : list (group_val * f64)), constructed W p s v -> sound_set s ->
    Forall (well_shaped s) (map fst l) -> Forall2 (@observes (derived_lgset bd) sv ts) l calls -> run_calls W calls v = Done v' ->
    Forall (fun f => valid_label_name (field_label f)) s ->
    (forall g, no_nan (given g l) /\ N.of_nat (length (given g l)) < 2 ^ 63) ->
    forall G nss base pre post w,
    group_events [] G (pre ++ family_events nss base (vec_family (derived_lgset bd) hist (w_iter W) (group_visit heck s) KHistogram (hist_sample ts) v') ++ post) ->
    Forall event_ok (pre ++ post) -> Forall valid_metric_name (base :: nss) -> reliable w ->
    reported ryu bd G w (full_name nss base []) KHistogram (map fst l)
      (fun g part => exists ls, group_shown heck s g ls /\ observed_lines ryu nss base ls ts (given g l) part).
  Proof.
    intros bd W sv ts WOK D WB TB S1 p s v calls v' l C OK T F R LV B G nss base pre post w GE EV NM RW.
    assert (LD : length (h_buckets (w_default W)) = length ts) by (rewrite D; cbn; now rewrite repeat_length).
    assert (FIN : forall g, exists h, fold_left (observe_step sv ts) (given g l) (w_default W) = h /\ length (h_buckets h) = length ts /\
      (forall k t, nth_error ts k = Some t -> first_buckets (S k) (h_buckets h) = count_le (given g l) t) /\
      first_buckets (length ts) (h_buckets h) + h_inf h = N.of_nat (length (given g l)) /\ h_sum h = float_sum (given g l)).
    { intros g. destruct (B g) as [NX LX].
      destruct (observations_counted sv bd ts (given g l) WB S1 NX) as (h & E & X).
      { eapply N.lt_trans; [exact LX|reflexivity]. }
      destruct (observe_steps sv ts (given g l) (w_default W) LD) as [E' _]. rewrite D, E in E'. injection E' as E'. exists h. rewrite D. split; [now symmetry|exact X]. }
    destruct (updates_reported bd W (observe_step sv ts) WOK p s v calls v' l C OK T R) with (k := KHistogram) (read := hist_sample ts) (G := G) (nss := nss) (base := base) (pre := pre) (post := post) (w := w)
      (lines_of := fun g ls part => observed_lines ryu nss base ls ts (given g l) part)
      as (st & out & items & before & lines & behind & gs & E1 & E2 & E3 & E4 & ND & IN & (parts & E5 & F5)); try assumption.
    - eapply Forall2_impl_in; [|exact F]. intros [gq x] c I H. cbn [fst snd].
      assert (X : c = @Update (derived_lgset bd) hist false gq (guard_observe sv ts x)).
      { destruct H as [->|[(d & E & ->)|(start & now & d & N1 & N2 & E & ->)]]; cbn [fst snd] in *; [reflexivity|now subst x|].
        assert (ED : elapsed start now = d).
        { destruct d as [ds dn]. cbn [d_secs d_nanos] in *. unfold elapsed, nanos_per_sec. change (10 ^ 9) with 1000000000 in *.
          rewrite <- N2. f_equal.
          - rewrite N.div_add_l by lia. rewrite N.div_small by lia. lia.
          - rewrite N.add_comm, N.mod_add by lia. now apply N.mod_small. }
        unfold histogram_vec_observe_since, histogram_vec_observe_duration. rewrite ED, <- E. reflexivity. }
      eexists _, _. split; [exact X|]. intros ys zs E. rewrite fold_left_app. cbn [fold_left].
      destruct (observe_steps sv ts ys (w_default W) LD) as [_ LY].
      destruct (observe_total sv ts x _ LY) as (h' & H'). rewrite H'. unfold observe_step at 1. now rewrite H'.
    - reflexivity.
    - intros g I. destruct (FIN g) as (h & -> & L & _ & TT & _). unfold hist_sample, metric_in_range. split; [now symmetry|]. rewrite L, TT. apply (B g).
    - intros g ls part I X. destruct (FIN g) as (h & EH & L & CC & TT & SS). rewrite EH in X. cbn [hist_sample metric_lines] in X.
      exact (histogram_lines_observed ryu nss base ls ts (given g l) h part L CC TT SS X).
    - exists st, out, items, before, lines, behind, gs. do 6 (split; [assumption|]). exists parts. split; [exact E5|exact F5].
  Qed.
End Kinds.
