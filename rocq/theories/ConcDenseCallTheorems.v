(** Calls made by threads on a dense vec: counters and histograms. *)
From Coq Require Import List NArith ZArith Bool Arith Lia.
From Verif Require Import Base BaseFacts FloatModel MetricModel LabelModel LabelSpec GroupProofs LawProofs ConcModel ConcSpec ConcProofs ConcTheorems ConcVecSpec
  ConcVecTheorems ConcLabelProofs ConcDenseModel ConcDenseSpec ConcDense ConcDenseTheorems ConcCallModel ConcBoth ConcScript ConcCallSpec ConcCallProofs ConcCallTheorems
  ConcDenseCallModel ConcDenseCallSpec ConcDenseCallProofs.
Import ListNotations.
Local Open Scope nat_scope.
Local Set Asymmetric Patterns.

Section Any.
  Context {L : lgset} {Sh Op Res Mic V St : Type}.
  Variable wt : lg_state L -> lg_group L -> Prop.
  Variable w : dense_setup L.
  Variable m : metric_code Sh Op Res Mic V.
  Variable spec : nat -> Op -> St -> option (St * Res).
  Variable st_new : St.
  Variable aview : St -> V.
  Variable P : dense_program L Op Res.
  Hypothesis fixed : dense_ok_setup L wt w.
  Hypothesis shaped : dense_shaped wt w P.
  Hypothesis good : good_metric (mc_machine m) (mc_new m) (mc_view m) spec st_new aview.
  Notation done s i := (dense_finished w m P s i).
  Notation dspec := (dense_spec spec st_new (dn_cells w)).

  (** Everybody idle: the state and a sequence of all operations. *)
  Lemma settled : forall s, dense_nobody_busy w m P s -> exists log a, legal dspec ad_new log a /\
    (forall i, of_thread i log = rdone (flat_map snd (done s i))) /\
    forall k, option_map (mc_view m) (dense_metric_at w m P s k) = option_map aview (ad_tab a k).
  Proof.
    intros s NB. edestruct (logs w m spec st_new aview P) with (s := s) (s' := @nil (nat * nat)) as (log & more & a & _ & E & LG & SV); try eassumption.
    rewrite app_nil_r in E, SV. exists (log ++ more), a. split; [exact LG|]. split.
    - intros i. eapply idle_log; try eassumption. apply NB.
    - apply SV. intros i. apply idle_cur. apply NB.
  Qed.

  Theorem dense_rows : forall s, dense_nobody_busy w m P s -> forall k,
    dense_metric_at w m P s k <> None <->
    exists g u j tr r, In (EUpdate g u, tr) (done s j) /\ dense_result_of (EUpdate g u) tr = DReturned r /\ dense_id wt w g k.
  Proof.
    intros s NB k. split.
    - intros X. destruct (dense_metric_at w m P s k) as [x|] eqn:E; [|now elim X].
      edestruct (row_groups wt w m spec st_new aview P) as (g & u & j & tr & I & IG); try eassumption.
      edestruct (made_outcome wt w m spec st_new aview P) as (OC & _); try eassumption.
      inversion OC as [g' u' EN|g' u' k' r IG'| | | |]; subst.
      + exfalso. destruct IG as (_ & q & EQ & _). congruence.
      + exists g, u, j. eexists. exists r. split; [exact I|]. split; [reflexivity|exact IG].
    - intros (g & u & j & tr & r & I & R & IG) X. destruct (settled s NB) as (log & a & LG & E & SV).
      edestruct (made_outcome wt w m spec st_new aview P) as (OC & _ & x & y & D); try eassumption.
      inversion OC as [g' u' EN|g' u' k' r' IG'| | | |]; subst; [discriminate|].
      assert (k' = k) as -> by (eapply ids_agree; [..|exact IG|exact IG'|reflexivity]; eassumption).
      assert (AK : asked k log = true).
      { apply (got_asked k _ j 0), in_of_thread. rewrite E. apply in_sel_right.
        apply in_flat_map. eexists. split; [exact I|]. right. now left. }
      pose proof (legal_cell spec st_new (dn_cells w) k _ _ LG) as LF. specialize (SV k). rewrite X in SV. cbn in SV.
      destruct (ad_tab a k); [discriminate|]. destruct LF. congruence.
  Qed.

  (** *** Amounts *)
  Variable geq : forall a b : lg_group L, {a = b} + {a <> b}.
  Variable md : Z.
  Hypothesis md_pos : (0 < md)%Z.
  Variable amt : St -> Z.
  Variable add : Op -> Res -> Z.
  Variable amount : V -> Z.
  Hypothesis amt_new : amt st_new = 0%Z.
  Hypothesis amt_view : forall x, amount (aview x) = amt x.
  Hypothesis amt_step : forall i u x x' r, spec i u x = Some (x', r) -> (amt x' mod md = (amt x + add u r) mod md)%Z.
  Hypothesis add_read : forall r, add (mc_read m) r = 0%Z.

  Lemma log_amount : forall k log a, legal dspec ad_new log a ->
    (match ad_tab a k with Some x => amt x | None => 0 end mod md = sum_over (fun e => dense_flow add k (snd (fst e), snd e)) log mod md)%Z.
  Proof.
    intros k log a LG.
    exact (dlegal_amount spec st_new (dn_cells w) md ltac:(lia) amt add amt_new amt_step k log a LG).
  Qed.

  Theorem dense_all_totals : forall s n g k, dense_nobody_busy w m P s -> (forall i, n <= i -> done s i = []) -> dense_id wt w g k ->
    (match dense_metric_at w m P s k with Some x => amount (mc_view m x) | None => 0 end mod md =
     dense_sum_finished w m P geq add g n s mod md)%Z.
  Proof.
    intros s n g k NB BE IG. destruct (settled s NB) as (log & a & LG & E & SV). specialize (SV k).
    transitivity ((match ad_tab a k with Some x => amt x | None => 0 end) mod md)%Z.
    { f_equal. destruct (dense_metric_at w m P s k), (ad_tab a k); cbn in SV; try discriminate; [|reflexivity].
      rewrite <- amt_view. f_equal. congruence. }
    rewrite (log_amount k log a LG). f_equal. rewrite (flow_by_thread _ _ (dense_flow add k) n).
    - unfold dense_sum_finished. apply sum_over_ext. intros i _. rewrite E. eapply flow_calls; try eassumption.
      intros call tr I. eapply made_outcome; eassumption.
    - intros [[i o] r] I. cbn. destruct (Nat.lt_ge_cases i n) as [X|X]; [exact X|]. exfalso.
      apply in_of_thread in I. rewrite E, (BE i X) in I. exact I.
  Qed.

  Variable most : Op -> Z.
  Hypothesis add_most : forall u r, (0 <= add u r <= most u)%Z.
  Hypothesis most_pos : forall u, (0 <= most u)%Z.
  Variable seen : Res -> Z.
  Hypothesis read_seen : forall i x x' r, spec i (mc_read m) x = Some (x', r) -> seen r = amt x.

  Lemma finished_pos : forall g n s, (0 <= dense_sum_finished w m P geq add g n s)%Z.
  Proof.
    assert (Z0 : forall A (f : A -> Z) l, (forall x, (0 <= f x)%Z) -> (0 <= sum_over f l)%Z).
    { intros A f l H. induction l as [|x l IH]; [apply Z.le_refl|]. change (0 <= f x + sum_over f l)%Z. now apply Z.add_nonneg_nonneg. }
    intros g n s. unfold dense_sum_finished. apply Z0. intros j. apply Z0. intros [call tr]. unfold dense_adds. cbn [fst snd].
    destruct call; try apply Z.le_refl. destruct (dense_result_of _ _); try apply Z.le_refl. destruct (geq _ _); [apply add_most|apply Z.le_refl].
  Qed.

  Theorem dense_all_brackets : forall s0 s1 i tr rest n, dense_underway w m P s0 i = None -> done (s0 ++ s1) i = done s0 i ++ (ECollect, tr) :: rest ->
    (forall j, n <= j -> done (s0 ++ s1) j = [] /\ dense_underway w m P (s0 ++ s1) j = None) ->
    forall l g r, dense_result_of ECollect tr = DCollected l -> In (g, r) l ->
    (dense_sum_begun w m P geq add most g n (s0 ++ s1) < md)%Z ->
    (dense_sum_finished w m P geq add g n s0 <= seen r mod md <= dense_sum_begun w m P geq add most g n (s0 ++ s1))%Z /\
    exists log x x', legal spec st_new log x /\ spec i (mc_read m) x = Some (x', r).
  Proof.
    intros s0 s1 i tr rest n U LA BE l g r RC I LT.
    edestruct (bracket wt w m spec st_new aview P fixed shaped good geq) as (k & h & pre & post & a & IG & LG & LO & HI); try eassumption.
    destruct (dlegal_use spec st_new (dn_cells w) _ _ _ _ _ _ _ _ LG) as (y & y' & LF & SP).
    split; [|exists (on_cell k pre), y, y'; auto].
    apply legal_app in LG as (a1 & L1 & L2). pose proof (log_amount k _ _ L1) as A.
    inversion L2 as [|t0 i0 op r0 a2 log s'' E2 H' EQ2]; subst.
    pose proof (dspec_cell _ _ _ _ _ _ _ _ k E2) as SK. cbn in SK. rewrite Nat.eqb_refl in SK. destruct SK as (x & x' & A1 & A2 & A3).
    rewrite A1 in A. rewrite (read_seen _ _ _ _ A2), A. pose proof (finished_pos g n s0).
    rewrite Z.mod_small; [split; assumption|]. split; [eapply Z.le_trans; eassumption|eapply Z.le_lt_trans; eassumption].
  Qed.
End Any.

(** ** Counters *)
Section Instances.
  Context {L : lgset}.
  Variable wt : lg_state L -> lg_group L -> Prop.
  Variable w : dense_setup L.
  Variable geq : forall a b : lg_group L, {a = b} + {a <> b}.
  Hypothesis fixed : dense_ok_setup L wt w.

  Section Counters.
    Variable P : dense_program L counter_op N.
    Hypothesis shaped : dense_shaped wt w P.
    Notation add := (fun u (_ : N) => counter_delta u).

    Theorem dense_counter_totals : forall s n g k, dense_nobody_busy w counter_code P s -> (forall i, n <= i -> dense_finished w counter_code P s i = []) ->
      dense_id wt w g k ->
      Z.of_N (match dense_metric_at w counter_code P s k with Some v => v | None => 0 end) =
      (dense_sum_finished w counter_code P geq add g n s mod 2 ^ 64)%Z.
    Proof.
      intros s n g k NB BE IG.
      pose proof (dense_all_totals wt w counter_code (pure_spec counter_eff) 0%N (fun v => v) P fixed shaped (counter_good 0) geq (2 ^ 64)%Z ltac:(lia) Z.of_N
        add Z.of_N eq_refl (fun _ => eq_refl) counter_step_mod (fun _ => eq_refl) s n g k NB BE IG) as T.
      rewrite <- T. cbn [mc_view counter_code]. destruct (dense_metric_at w counter_code P s k) as [v|] eqn:E; [|reflexivity].
      destruct (settled wt w counter_code (pure_spec counter_eff) 0%N (fun v => v) P fixed shaped (counter_good 0) s NB) as (log & a & LG & _ & SV).
      specialize (SV k). rewrite E in SV. cbn in SV. pose proof (legal_cell _ _ _ k _ _ LG) as LF.
      destruct (ad_tab a k) as [y|]; [|discriminate]. cbn in SV. injection SV as <-. symmetry. apply (counter_small _ _ (proj2 LF)).
    Qed.

    Theorem dense_counter_brackets : forall s0 s1 i tr rest n, dense_underway w counter_code P s0 i = None ->
      dense_finished w counter_code P (s0 ++ s1) i = dense_finished w counter_code P s0 i ++ (ECollect, tr) :: rest ->
      (forall j, n <= j -> dense_finished w counter_code P (s0 ++ s1) j = [] /\ dense_underway w counter_code P (s0 ++ s1) j = None) ->
      forall l g r, dense_result_of ECollect tr = DCollected l -> In (g, r) l ->
      (dense_sum_begun w counter_code P geq add counter_delta g n (s0 ++ s1) < 2 ^ 64)%Z ->
      (dense_sum_finished w counter_code P geq add g n s0 <= Z.of_N r <=
       dense_sum_begun w counter_code P geq add counter_delta g n (s0 ++ s1))%Z.
    Proof.
      intros s0 s1 i tr rest n U LA BE l g r RC I LT.
      assert (RS : forall i x x' r, pure_spec counter_eff i (mc_read counter_code) x = Some (x', r) -> Z.of_N r = Z.of_N x).
      { intros j x x' r' E. unfold pure_spec in E. cbn in E. injection E as -> ->. reflexivity. }
      assert (MP : forall u, (0 <= counter_delta u)%Z) by (intros u; exact (proj1 (delta_most u 0%N))).
      destruct (dense_all_brackets wt w counter_code (pure_spec counter_eff) 0%N (fun v => v) P fixed shaped (counter_good 0) geq (2 ^ 64)%Z ltac:(lia) Z.of_N
        add Z.of_N eq_refl (fun _ => eq_refl) counter_step_mod (fun _ => eq_refl) counter_delta delta_most MP Z.of_N RS s0 s1 i tr rest n U LA BE
        l g r RC I LT) as (B & log & x & x' & LG & E).
      apply RS in E. rewrite E in B |- *. now rewrite (counter_small _ _ LG) in B.
    Qed.
  End Counters.

  Section Histograms.
    Variable b : nat.
    Variable P : dense_program L hist_op hist_res.
    Hypothesis shaped : dense_shaped wt w P.

    Theorem dense_hist_totals : forall s n g k, dense_nobody_busy w (hist_code b) P s -> (forall i, n <= i -> dense_finished w (hist_code b) P s i = []) ->
      dense_id wt w g k ->
      (match dense_metric_at w (hist_code b) P s k with Some h => hist_count (hist_view (ch_state h)) | None => 0 end mod 2 ^ 64 =
       dense_sum_finished w (hist_code b) P geq hist_added g n s mod 2 ^ 64)%Z.
    Proof.
      intros s n g k NB BE IG.
      exact (dense_all_totals wt w (hist_code b) hist_spec (hist_new b) hist_view P fixed shaped (hist_good b) geq (2 ^ 64)%Z ltac:(lia)
        (fun h => hist_count (hist_view h)) hist_added hist_count (hist_count_new b) (fun _ => eq_refl) hist_step_mod (fun _ => eq_refl) s n g k NB BE IG).
    Qed.

    Theorem dense_hist_brackets : forall s0 s1 i tr rest n, dense_underway w (hist_code b) P s0 i = None ->
      dense_finished w (hist_code b) P (s0 ++ s1) i = dense_finished w (hist_code b) P s0 i ++ (ECollect, tr) :: rest ->
      (forall j, n <= j -> dense_finished w (hist_code b) P (s0 ++ s1) j = [] /\ dense_underway w (hist_code b) P (s0 ++ s1) j = None) ->
      forall l g r, dense_result_of ECollect tr = DCollected l -> In (g, r) l ->
      (dense_sum_begun w (hist_code b) P geq hist_added hist_most g n (s0 ++ s1) < 2 ^ 64)%Z ->
      exists v, r = Some v /\
        (dense_sum_finished w (hist_code b) P geq hist_added g n s0 <= hist_count v mod 2 ^ 64 <=
         dense_sum_begun w (hist_code b) P geq hist_added hist_most g n (s0 ++ s1))%Z.
    Proof.
      intros s0 s1 i tr rest n U LA BE l g r RC I LT.
      set (seen := fun r : hist_res => match r with Some v => hist_count v | None => 0%Z end).
      assert (RS : forall i x x' r, hist_spec i (mc_read (hist_code b)) x = Some (x', r) -> seen r = hist_count (hist_view x)).
      { intros j x x' r' E. cbn in E. injection E as <- <-. reflexivity. }
      assert (MP : forall u, (0 <= hist_most u)%Z) by (intros [x v|]; cbn; lia).
      destruct (dense_all_brackets wt w (hist_code b) hist_spec (hist_new b) hist_view P fixed shaped (hist_good b) geq (2 ^ 64)%Z ltac:(lia)
        (fun h => hist_count (hist_view h)) hist_added hist_count (hist_count_new b) (fun _ => eq_refl) hist_step_mod (fun _ => eq_refl)
        hist_most added_most MP seen RS s0 s1 i tr rest n U LA BE l g r RC I LT) as (B & log & x & x' & LG & E).
      cbn in E. injection E as _ <-. exists (hist_view x). split; [reflexivity|exact B].
    Qed.
  End Histograms.
End Instances.
