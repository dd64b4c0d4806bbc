(** The same of a dense vec. *)
From Coq Require Import List NArith ZArith Bool Arith Lia.
From Verif Require Import Base BaseFacts FloatModel MetricModel LabelModel LabelSpec GroupProofs LawProofs TextModel TextSpec ConcModel ConcSpec ConcProofs ConcTheorems ConcVecSpec
  ConcVecTheorems ConcLabelProofs ConcCallModel ConcCallSpec ConcCallTheorems ConcCallOrder ConcWithin ConcDenseModel ConcDenseSpec ConcDense ConcDenseTheorems
  ConcDenseCallModel ConcDenseCallSpec ConcDenseCallProofs ConcDenseCallTheorems.
Import ListNotations.
Local Open Scope nat_scope.

Section Dense.
  Context {L : lgset}.
  Variable wt : lg_state L -> lg_group L -> Prop.
  Variable w : dense_setup L.
  Variable geq : forall a b : lg_group L, {a = b} + {a <> b}.
  Hypothesis fixed : dense_ok_setup L wt w.
  Variable b : nat.
  Variable P : dense_program L hist_op hist_res.
  Hypothesis shaped : dense_shaped wt w P.
  Notation begun := (dense_sum_begun w (hist_code b) P geq).

  Lemma dense_begun_below : forall g n s,
    (forall c, (begun (bucket_added c) (bucket_of c) g n s <= begun hist_added hist_most g n s)%Z) /\
    (sum_over (fun c => begun (bucket_added c) (bucket_of c) g n s) (seq 0 (S b)) <= begun hist_added hist_most g n s)%Z.
  Proof.
    intros g n s. split.
    - intros c. unfold dense_sum_begun. apply sum_le. intros j _. apply Z.add_le_mono.
      + apply sum_le. intros [call tr] I. unfold dense_adds. cbn [fst snd]. destruct call as [g' u| | |]; try apply Z.le_refl.
        destruct (dense_result_of _ _); try apply Z.le_refl. destruct (geq g' g); [apply bucket_less|apply Z.le_refl].
      + destruct (dense_underway w (hist_code b) P s j) as [[g' u| | |]|]; try apply Z.le_refl. destruct (geq g' g); [apply bucket_of_most|apply Z.le_refl].
    - unfold dense_sum_begun. rewrite sum_swap. apply sum_le. intros j _. rewrite sum_plus, sum_swap. apply Z.add_le_mono.
      + apply sum_le. intros [call tr] I. unfold dense_adds. cbn [fst snd].
        destruct call as [g' u| | |]; try (rewrite sum_naught; apply Z.le_refl).
        destruct (dense_result_of _ _); try (rewrite sum_naught; apply Z.le_refl). destruct (geq g' g); [apply buckets_added|rewrite sum_naught; apply Z.le_refl].
      + destruct (dense_underway w (hist_code b) P s j) as [[g' u| | |]|]; try (rewrite sum_naught; apply Z.le_refl).
        destruct (geq g' g); [apply buckets_of|rewrite sum_naught; apply Z.le_refl].
  Qed.

  Theorem dense_hist_within : forall s0 s1 i tr rest n, dense_underway w (hist_code b) P s0 i = None ->
    dense_finished w (hist_code b) P (s0 ++ s1) i = dense_finished w (hist_code b) P s0 i ++ (ECollect, tr) :: rest ->
    (forall j, n <= j -> dense_finished w (hist_code b) P (s0 ++ s1) j = [] /\ dense_underway w (hist_code b) P (s0 ++ s1) j = None) ->
    forall l g r, dense_result_of ECollect tr = DCollected l -> In (g, r) l ->
    (begun hist_added hist_most g n (s0 ++ s1) < 2 ^ 64)%Z ->
    exists bs inf sum, r = Some (bs, inf, sum) /\ length bs = b /\
      (Z.of_N (first_buckets (length bs) bs + inf) <= begun hist_added hist_most g n (s0 ++ s1))%Z.
  Proof.
    intros s0 s1 i tr rest n ID LA BE l g r RC I LT. destruct (dense_begun_below g n (s0 ++ s1)) as [EACH ALL].
    set (seen := fun c (r : hist_res) => match r with Some v => bucket_count c v | None => 0%Z end).
    assert (RS : forall c i x x' r, hist_spec i (mc_read (hist_code b)) x = Some (x', r) -> seen c r = bucket_count c (hist_view x)).
    { intros c j x x' r' E. cbn in E. injection E as <- <-. reflexivity. }
    assert (MP : forall c u, (0 <= bucket_of c u)%Z) by (intros c [b' v|]; cbn; [destruct (Nat.eqb b' c); discriminate|discriminate]).
    assert (BR : forall c, (seen c r mod 2 ^ 64 <= begun (bucket_added c) (bucket_of c) g n (s0 ++ s1))%Z /\
      exists log x x', legal hist_spec (hist_new b) log x /\ hist_spec i (mc_read (hist_code b)) x = Some (x', r)).
    { intros c. destruct (dense_all_brackets wt w (hist_code b) hist_spec (hist_new b) hist_view P fixed shaped (hist_good b) geq (2 ^ 64)%Z ltac:(lia)
        (fun h => bucket_count c (hist_view h)) (bucket_added c) (bucket_count c) (bucket_new b c) (fun _ => eq_refl) (bucket_step_mod c) (fun _ => eq_refl)
        (bucket_of c) (bucket_added_of c) (MP c) (seen c) (RS c) s0 s1 i tr rest n ID LA BE l g r RC I
        ltac:(eapply Z.le_lt_trans; [apply EACH|exact LT])) as ([_ B] & X). split; [exact B|exact X]. }
    destruct (BR 0) as (_ & log & x & x' & LG & E). destruct (buckets_total b log x LG) as [LN TOT].
    cbn in E. injection E as _ <-. exists (h_buckets x), (h_inf x), (h_sum x). split; [reflexivity|]. split; [exact LN|]. rewrite <- TOT.
    eapply Z.le_trans; [|exact ALL]. apply sum_le. intros c _. exact (proj1 (BR c)).
  Qed.

  Theorem dense_hist_brackets_exact : forall s0 s1 i tr rest n, dense_underway w (hist_code b) P s0 i = None ->
    dense_finished w (hist_code b) P (s0 ++ s1) i = dense_finished w (hist_code b) P s0 i ++ (ECollect, tr) :: rest ->
    (forall j, n <= j -> dense_finished w (hist_code b) P (s0 ++ s1) j = [] /\ dense_underway w (hist_code b) P (s0 ++ s1) j = None) ->
    forall l g r, dense_result_of ECollect tr = DCollected l -> In (g, r) l ->
    (begun hist_added hist_most g n (s0 ++ s1) < 2 ^ 64)%Z ->
    exists v, r = Some v /\ length (fst (fst v)) = b /\
      (dense_sum_finished w (hist_code b) P geq hist_added g n s0 <= hist_count v <= begun hist_added hist_most g n (s0 ++ s1))%Z.
  Proof.
    intros s0 s1 i tr rest n ID LA BE l g r RC I LT.
    destruct (dense_hist_within s0 s1 i tr rest n ID LA BE l g r RC I LT) as (bs & inf & sum & -> & LN & LE).
    destruct (dense_hist_brackets wt w geq fixed b P shaped s0 s1 i tr rest n ID LA BE l g _ RC I LT) as (v & E & B). injection E as <-.
    exists (bs, inf, sum). split; [reflexivity|]. split; [exact LN|]. rewrite <- (count_is bs inf sum) in LE.
    assert (0 <= hist_count (bs, inf, sum))%Z by (rewrite count_is; apply N2Z.is_nonneg). rewrite Z.mod_small in B by lia. exact B.
  Qed.
End Dense.
