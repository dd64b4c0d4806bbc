(** Collections of a shared dense vec, one after the other. *)
From Coq Require Import List NArith ZArith Bool Arith Lia.
From Verif Require Import Base BaseFacts FloatModel MetricModel LabelModel LabelSpec GroupProofs LawProofs ConcModel ConcSpec ConcProofs ConcTheorems ConcVecSpec
  ConcVecTheorems ConcLabelProofs ConcCallModel ConcCallSpec ConcCallTheorems ConcCallOrder ConcDenseModel ConcDenseSpec ConcDense ConcDenseTheorems
  ConcDenseCallModel ConcDenseCallSpec ConcDenseCallProofs ConcDenseCallTheorems.
Import ListNotations.
Local Open Scope nat_scope.
Local Set Asymmetric Patterns.

Section Any.
  Context {L : lgset} {Sh Op Res Mic V St : Type}.
  Variable wt : lg_state L -> lg_group L -> Prop.
  Variable w : dense_setup L.
  Variable m : metric_code Sh Op Res Mic V.
  Variable spec : nat -> Op -> St -> option (St * Res).
  Variable st_new : St.
  Variable aview : St -> V.
  Variable P : dense_program L Op Res.
  Hypothesis fixed : dense_ok_setup L wt w.
  Hypothesis shaped : dense_shaped wt w P.
  Hypothesis good : good_metric (mc_machine m) (mc_new m) (mc_view m) spec st_new aview.
  Variable geq : forall a b : lg_group L, {a = b} + {a <> b}.
  Notation done s i := (dense_finished w m P s i).

  Section Two.
    Variables s0 s1 : schedule.
    Variable i : nat.
    Variable tr : trace (look_op L + dense_op Op) (look_res L + dense_res Res).
    Variable rest : list (dense_call L Op * trace (look_op L + dense_op Op) (look_res L + dense_res Res)).
    Hypothesis idle : dense_underway w m P s0 i = None.
    Hypothesis later : done (s0 ++ s1) i = done s0 i ++ (ECollect, tr) :: rest.
    Variable i0 : nat.
    Variable tr0 : trace (look_op L + dense_op Op) (look_res L + dense_res Res).
    Hypothesis earlier : In (ECollect, tr0) (done s0 i0).
    Variables (l0 : list (lg_group L * Res)) (g : lg_group L) (r0 : Res).
    Hypothesis collected0 : dense_result_of ECollect tr0 = DCollected l0.
    Hypothesis showed : In (g, r0) l0.

    Theorem dense_still : exists l r, dense_result_of ECollect tr = DCollected l /\ In (g, r) l.
    Proof.
      exact (ConcDenseCallProofs.later_shows wt w m spec st_new aview P fixed shaped good s0 s1 i tr rest idle later i0 tr0 l0 g r0 earlier collected0 showed).
    Qed.

    Variable l : list (lg_group L * Res).
    Variable r : Res.
    Hypothesis collected : dense_result_of ECollect tr = DCollected l.
    Hypothesis shows : In (g, r) l.

    Lemma dense_busy_below : exists n, forall j, n <= j -> done (s0 ++ s1) j = [] /\ dense_underway w m P (s0 ++ s1) j = None.
    Proof.
      clear. exists (S (list_max (map fst (s0 ++ s1)))). intros j LE. unfold dense_underway, dense_finished, dense_at_time.
      rewrite (untouched _ _ _ _ _ _ _ _ (S (list_max (map fst (s0 ++ s1)))) j); [split; reflexivity| |exact LE].
      apply forallb_forall. intros ic I. apply Nat.ltb_lt.
      assert (M : fst ic <= list_max (map fst (s0 ++ s1))); [|lia].
      pose proof (proj1 (list_max_le (map fst (s0 ++ s1)) _) (Nat.le_refl _)) as F. rewrite Forall_forall in F. apply F. now apply in_map.
    Qed.

    Theorem dense_lineage : exists before x x' between y y',
      legal spec st_new before x /\ spec i0 (mc_read m) x = Some (x', r0) /\
      legal spec x' between y /\ spec i (mc_read m) y = Some (y', r).
    Proof.
      destruct dense_busy_below as (n & BE).
      destruct (ConcDenseCallProofs.later_read wt w m spec st_new aview P fixed shaped good geq (fun _ _ => 0%Z) (fun _ => 0%Z) (fun _ => eq_refl)
        (fun _ _ => conj (Z.le_refl 0) (Z.le_refl 0)) (fun _ => Z.le_refl 0) s0 s1 i tr rest n idle later BE i0 tr0 l0 g r0 earlier collected0 showed
        l r collected shows) as (k & h0 & h & pre & mid & post & a & IG & LG & _).
      destruct (dlegal_use spec st_new (dn_cells w) _ _ _ _ _ _ _ _ LG) as (y & y' & LF & SP).
      unfold on_cell in LF. rewrite flat_map_app in LF. cbn [flat_map] in LF. rewrite Nat.eqb_refl in LF.
      apply legal_app in LF as (x & L0 & L1). cbn [app] in L1. inversion L1 as [|t0 i1 op r1 a2 lg' s'' E2 H' EQ2]; subst.
      eexists. exists x. eexists. eexists. exists y, y'. split; [exact L0|]. split; [exact E2|]. split; [exact H'|exact SP].
    Qed.

    Variable md : Z.
    Hypothesis md_pos : (0 < md)%Z.
    Variable amt : St -> Z.
    Variable add : Op -> Res -> Z.
    Variable amount : V -> Z.
    Variable most : Op -> Z.
    Variable seen : Res -> Z.
    Hypothesis amt_new : amt st_new = 0%Z.
    Hypothesis amt_view : forall x, amount (aview x) = amt x.
    Hypothesis amt_step : forall i u x x' r, spec i u x = Some (x', r) -> (amt x' mod md = (amt x + add u r) mod md)%Z.
    Hypothesis add_read : forall r, add (mc_read m) r = 0%Z.
    Hypothesis add_most : forall u r, (0 <= add u r <= most u)%Z.
    Hypothesis read_seen : forall i x x' r, spec i (mc_read m) x = Some (x', r) -> seen r = amt x.
    Variable n : nat.
    Hypothesis below : forall j, n <= j -> done (s0 ++ s1) j = [] /\ dense_underway w m P (s0 ++ s1) j = None.
    Hypothesis no_wrap : (dense_sum_begun w m P geq add most g n (s0 ++ s1) < md)%Z.

    Theorem dense_later : (seen r0 mod md <= seen r mod md)%Z.
    Proof.
      assert (most_pos : forall u, (0 <= most u)%Z).
      { intros u. destruct (add_most u r) as [A B]. exact (Z.le_trans _ _ _ A B). }
      destruct (ConcDenseCallProofs.later_read wt w m spec st_new aview P fixed shaped good geq add most add_read
        add_most most_pos s0 s1 i tr rest n idle later below i0 tr0 l0 g r0 earlier collected0 showed
        l r collected shows) as (k & h0 & h & pre & mid & post & a & IG & LG & B1 & B2).
      assert (V0 : forall pre i1 h1 r1 post a, legal (dense_spec spec st_new (dn_cells w)) ad_new
          (pre ++ (i1, DUse h1 k (mc_read m), DVal r1) :: post) a ->
        (seen r1 mod md = sum_over (fun e => dense_flow add k (snd (fst e), snd e)) pre mod md)%Z).
      { clear - md_pos amt_new amt_view amt_step read_seen. intros pre i1 h1 r1 post a LG. apply legal_app in LG as (a1 & L1 & L2).
        pose proof (log_amount w spec st_new aview md md_pos amt add amount amt_new amt_view amt_step k _ _ L1) as A.
        inversion L2 as [|t0 i2 op r2 a2 log s'' E2 H' EQ2]; subst.
        pose proof (dspec_cell _ _ _ _ _ _ _ _ k E2) as SK. cbn in SK. rewrite Nat.eqb_refl in SK. destruct SK as (x & x' & A1 & A2 & A3).
        rewrite A1 in A. rewrite (read_seen _ _ _ _ A2). exact A. }
      rewrite (V0 _ _ _ _ _ _ LG). rewrite <- app_assoc in LG. cbn [app] in LG. rewrite (V0 _ _ _ _ _ _ LG).
      destruct B1 as [B0 B1]. pose proof (Z.le_lt_trans _ _ _ B2 no_wrap) as B3.
      rewrite !Z.mod_small; [exact B1| |]; split; [eapply Z.le_trans; eassumption|exact B3|exact B0|eapply Z.le_lt_trans; eassumption].
    Qed.
  End Two.

  Lemma dense_less : forall add1 add2 most g n s, (forall u r, (add1 u r <= add2 u r)%Z) ->
    (dense_sum_begun w m P geq add1 most g n s <= dense_sum_begun w m P geq add2 most g n s)%Z.
  Proof.
    clear. intros add1 add2 most g n s LE. unfold dense_sum_begun. apply sums_le. intros j _. apply Z.add_le_mono_r. apply sums_le. intros [call tr] _.
    unfold dense_adds. cbn [fst snd]. destruct call; try apply Z.le_refl. destruct (dense_result_of _ _); try apply Z.le_refl.
    destruct (geq _ _); [apply LE|apply Z.le_refl].
  Qed.
End Any.

Section Instances.
  Context {L : lgset}.
  Variable wt : lg_state L -> lg_group L -> Prop.
  Variable w : dense_setup L.
  Variable geq : forall a b : lg_group L, {a = b} + {a <> b}.
  Hypothesis fixed : dense_ok_setup L wt w.

  Theorem dense_counter_later : forall P : dense_program L counter_op N, dense_shaped wt w P ->
    forall s0 s1 i tr rest n, dense_underway w counter_code P s0 i = None ->
    dense_finished w counter_code P (s0 ++ s1) i = dense_finished w counter_code P s0 i ++ (ECollect, tr) :: rest ->
    (forall j, n <= j -> dense_finished w counter_code P (s0 ++ s1) j = [] /\ dense_underway w counter_code P (s0 ++ s1) j = None) ->
    forall i0 tr0 l0 g r0, In (ECollect, tr0) (dense_finished w counter_code P s0 i0) -> dense_result_of ECollect tr0 = DCollected l0 -> In (g, r0) l0 ->
    (dense_sum_begun w counter_code P geq (fun u _ => counter_delta u) counter_delta g n (s0 ++ s1) < 2 ^ 64)%Z ->
    exists l, dense_result_of ECollect tr = DCollected l /\ (exists r, In (g, r) l) /\ forall r, In (g, r) l -> (r0 <= r)%N.
  Proof.
    intros P shaped s0 s1 i tr rest n ID LA BE i0 tr0 l0 g r0 EA C0 S0 LT.
    destruct (dense_still wt w counter_code (pure_spec counter_eff) 0%N (fun v => v) P fixed shaped (counter_good 0) s0 s1 i tr rest ID LA
      i0 tr0 EA l0 g r0 C0 S0) as (l & r & RC & I).
    exists l. split; [exact RC|]. split; [eauto|]. clear r I. intros r I.
    assert (RS : forall i x x' r, pure_spec counter_eff i (mc_read counter_code) x = Some (x', r) -> Z.of_N r = Z.of_N x).
    { intros j x x' r' E. cbn in E. unfold pure_spec in E. cbn in E. injection E as -> ->. reflexivity. }
    pose proof (dense_later wt w counter_code (pure_spec counter_eff) 0%N (fun v => v) P fixed shaped (counter_good 0) geq s0 s1 i tr rest ID LA
      i0 tr0 EA l0 g r0 C0 S0 l r RC I (2 ^ 64)%Z ltac:(lia) Z.of_N (fun u _ => counter_delta u) Z.of_N counter_delta Z.of_N
      eq_refl (fun _ => eq_refl) counter_step_mod (fun _ => eq_refl) delta_most RS n BE LT) as LE.
    destruct (dense_lineage wt w counter_code (pure_spec counter_eff) 0%N (fun v => v) P fixed shaped (counter_good 0) geq s0 s1 i tr rest ID LA
      i0 tr0 EA l0 g r0 C0 S0 l r RC I) as (bf & x & x' & bt & y & y' & L1 & E1 & L2 & E2).
    pose proof (counter_small _ _ L1) as M1. rewrite <- (RS _ _ _ _ E1) in M1. pose proof (RS _ _ _ _ E2) as Y.
    assert (X' : x' = x) by (cbn in E1; unfold pure_spec in E1; cbn in E1; injection E1 as -> _; reflexivity). subst x'.
    assert (L3 : legal (pure_spec counter_eff) 0%N (bf ++ bt) y).
    { clear - L1 L2. revert L1. generalize 0%N. induction bf as [|e bf IH]; intros z L1; inversion L1; subst; [exact L2|]. cbn. econstructor; eauto. }
    pose proof (counter_small _ _ L3) as M2. rewrite <- Y in M2. lia.
  Qed.

  Theorem dense_hist_later : forall b (P : dense_program L hist_op hist_res), dense_shaped wt w P ->
    forall s0 s1 i tr rest n, dense_underway w (hist_code b) P s0 i = None ->
    dense_finished w (hist_code b) P (s0 ++ s1) i = dense_finished w (hist_code b) P s0 i ++ (ECollect, tr) :: rest ->
    (forall j, n <= j -> dense_finished w (hist_code b) P (s0 ++ s1) j = [] /\ dense_underway w (hist_code b) P (s0 ++ s1) j = None) ->
    forall i0 tr0 l0 g r0, In (ECollect, tr0) (dense_finished w (hist_code b) P s0 i0) -> dense_result_of ECollect tr0 = DCollected l0 -> In (g, r0) l0 ->
    (dense_sum_begun w (hist_code b) P geq hist_added hist_most g n (s0 ++ s1) < 2 ^ 64)%Z ->
    exists l, dense_result_of ECollect tr = DCollected l /\ (exists r, In (g, r) l) /\
      forall r, In (g, r) l -> exists bs0 inf0 sum0 bs inf sum, r0 = Some (bs0, inf0, sum0) /\ r = Some (bs, inf, sum) /\
        Forall2 N.le bs0 bs /\ (inf0 <= inf)%N.
  Proof.
    intros b P shaped s0 s1 i tr rest n ID LA BE i0 tr0 l0 g r0 EA C0 S0 LT.
    destruct (dense_still wt w (hist_code b) hist_spec (hist_new b) hist_view P fixed shaped (hist_good b) s0 s1 i tr rest ID LA
      i0 tr0 EA l0 g r0 C0 S0) as (l & r & RC & I).
    exists l. split; [exact RC|]. split; [eauto|]. clear r I. intros r I.
    destruct (dense_lineage wt w (hist_code b) hist_spec (hist_new b) hist_view P fixed shaped (hist_good b) geq s0 s1 i tr rest ID LA
      i0 tr0 EA l0 g r0 C0 S0 l r RC I) as (bf & x & x' & bt & y & y' & L1 & E1 & L2 & E2).
    cbn in E1, E2. injection E1 as <- R0. injection E2 as _ R1.
    assert (BC : forall c, (bucket_count c (hist_view x) mod 2 ^ 64 <= bucket_count c (hist_view y) mod 2 ^ 64)%Z).
    { intros c. set (seen := fun r : hist_res => match r with Some v => bucket_count c v | None => 0%Z end).
      assert (RS : forall i x x' r, hist_spec i (mc_read (hist_code b)) x = Some (x', r) -> seen r = bucket_count c (hist_view x)).
      { intros j z z' r' E. cbn in E. injection E as <- <-. reflexivity. }
      pose proof (dense_later wt w (hist_code b) hist_spec (hist_new b) hist_view P fixed shaped (hist_good b) geq s0 s1 i tr rest ID LA
        i0 tr0 EA l0 g r0 C0 S0 l r RC I (2 ^ 64)%Z ltac:(lia) (fun h => bucket_count c (hist_view h)) (bucket_added c) (bucket_count c) hist_most seen
        (bucket_new b c) (fun _ => eq_refl) (bucket_step_mod c) (fun _ => eq_refl) (bucket_most c) RS n BE
        ltac:(eapply Z.le_lt_trans; [|exact LT]; apply dense_less; apply bucket_less)) as LE.
      rewrite <- R0, <- R1 in LE. exact LE. }
    exists (h_buckets x), (h_inf x), (h_sum x), (h_buckets y), (h_inf y), (h_sum y).
    split; [now rewrite <- R0|]. split; [now rewrite <- R1|]. exact (buckets_grow b bf x bt y L1 L2 BC).
  Qed.
End Instances.
