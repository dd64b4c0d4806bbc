(** Histograms: exports, NaN, exponential buckets, timers. *)
From Coq Require Import String List NArith ZArith Bool SpecFloat Lia ZifyBool ZifyN ZifyNat.
From Verif Require Import Base BaseFacts Writer NameModel NameSpec LabelModel FloatModel FloatFacts FloatOrder FloatArith
  EncoderModel TextModel TextSpec EncoderSpec TextTheorems MetricModel MetricSpec MetricProofs MetricTheorems.
Import ListNotations.
Local Open Scope N_scope.

(* ------------------------------------------------------------------ *)
(** ** C25: exports *)

Lemma nlen_length : forall A (l : list A), nlen l = N.of_nat (length l).
Proof. intros A l. induction l as [|x l IH]; cbn [nlen length]; lia. Qed.

(** The buckets after a list of observations. *)
Theorem observations_counted : forall v bd ts xs, with_buckets bd ts = Done ts ->
  (forall t, ts = [t] -> f_is_nan t = false) -> no_nan xs -> (N.of_nat (length xs) < 2 ^ 64) ->
  exists h, observe_all v ts xs (hist_new (length ts)) = Done h /\ length (h_buckets h) = length ts /\
    (forall k t, nth_error ts k = Some t -> first_buckets (S k) (h_buckets h) = count_le xs t) /\
    first_buckets (length ts) (h_buckets h) + h_inf h = N.of_nat (length xs) /\
    h_sum h = float_sum xs.
Proof.
  intros v bd ts xs W S1 NX B. apply with_buckets_done in W as (_ & _ & A).
  pose proof (ascending_no_nan ts A S1) as NN.
  destruct (observe_all_spec v ts A NN xs (hist_new (length ts)) NX) as (h & E & L & C & T & S).
  - cbn. now rewrite repeat_length.
  - cbn [hist_new h_buckets h_inf]. rewrite first_buckets_0, nlen_length. change W64 with (2 ^ 64). lia.
  - cbn [hist_new h_buckets h_inf h_sum] in *. exists h. split; [exact E|]. split; [exact L|].
    split; [|split; [|exact S]].
    + intros k t K. rewrite (C k t K), first_buckets_0. reflexivity.
    + rewrite T, first_buckets_0, nlen_length. lia.
Qed.

Theorem counts_monotone : forall xs a b, f_lt a b = true -> count_le xs a <= count_le xs b.
Proof.
  intros xs a b L. unfold count_le. induction xs as [|x xs IH]; [reflexivity|]. rewrite !filter_nlen.
  destruct (f_le x a) eqn:A; [|lia]. replace (f_le x b) with true; [lia|]. symmetry.
  apply f_le_iff. apply f_le_iff in A. apply f_lt_iff in L. intuition lia.
Qed.

Theorem counts_bounded : forall xs t, count_le xs t <= N.of_nat (length xs).
Proof.
  intros xs t. unfold count_le. induction xs as [|x xs IH]; [reflexivity|]. rewrite filter_nlen.
  cbn [length]. destruct (f_le x t); lia.
Qed.

Lemma histogram_lines_observed : forall ryu nss base ls ts xs h items,
  length (h_buckets h) = length ts ->
  (forall k t, nth_error ts k = Some t -> first_buckets (S k) (h_buckets h) = count_le xs t) ->
  first_buckets (length ts) (h_buckets h) + h_inf h = N.of_nat (length xs) -> h_sum h = float_sum xs ->
  histogram_lines ryu nss base ls ts (h_buckets h) (h_inf h) (af_get_ex (h_sum h)) items ->
  observed_lines ryu nss base ls ts xs items.
Proof.
  intros ryu nss base ls ts xs h items L C T S (bs & i1 & i2 & i3 & E & LB & B & I1 & I2 & I3).
  rewrite L, T in *. exists bs, i1, i2, i3. split; [exact E|]. split; [|split; [|split]].
  - clear - B C LB. revert bs C LB B. generalize (h_buckets h). intros l.
    assert (H : forall (ts bs : list _), length bs = length ts ->
      (forall k t i, nth_error ts k = Some t -> nth_error bs k = Some i ->
         int_sample ryu (full_name nss base [str "bucket"]) (ls ++ [(str "le", LFloat t)]) (Z.of_N (count_le xs t)) i) ->
      Forall2 (fun t i => int_sample ryu (full_name nss base [str "bucket"]) (ls ++ [(str "le", LFloat t)]) (Z.of_N (count_le xs t)) i) ts bs).
    { induction ts0 as [|t ts0 IH]; intros [|b bs] LL HH; cbn in LL; try discriminate; constructor.
      - apply (HH 0%nat); reflexivity.
      - apply IH; [congruence|]. intros k u i K I. apply (HH (S k)); assumption. }
    intros bs C LB B. apply H; [exact LB|]. intros k t i K I. rewrite <- (C k t K). now apply (B k).
  - now rewrite nat_N_Z in I1.
  - change (af_get_ex (h_sum h)) with (h_sum h) in I2. now rewrite S in I2.
  - now rewrite nat_N_Z in I3.
Qed.

Lemma Forall2_middle : forall A B (R : A -> B -> Prop) pre x post l, Forall2 R (pre ++ x :: post) l ->
  exists l1 y l2, l = l1 ++ y :: l2 /\ Forall2 R pre l1 /\ R x y /\ Forall2 R post l2.
Proof.
  intros A B R pre x post l H. apply Forall2_app_inv_l in H as (l1 & l2 & H1 & H2 & ->).
  inversion H2 as [|a b c d E1 E2]; subst. eauto 8.
Qed.

Theorem export_observed : forall ryu bd v ts xs g pre nss base ls post w h, float_text_ok ryu ->
  with_buckets bd ts = Done ts -> Forall (fun t => t < 2 ^ 64) ts -> Forall (fun x => x < 2 ^ 64) xs ->
  (forall t, ts = [t] -> f_is_nan t = false) -> no_nan xs -> N.of_nat (length xs) < 2 ^ 63 ->
  observe_all v ts xs (hist_new (length ts)) = Done h ->
  group_events [] g (pre ++ EvSample nss base ls (hist_sample ts h) :: post) ->
  Forall event_ok (pre ++ post) -> Forall valid_metric_name (base :: nss) -> labels_valid ls -> reliable w ->
  exists s out items before lines after,
    collect_group (text_encoder ryu bd) g (text_new w) = (s, ROk) /\
    w_out (te_writer s) = w_out w ++ out /\ parse out = Some items /\
    filter meaningful items = before ++ lines ++ after /\
    observed_lines ryu nss base ls ts xs lines.
Proof.
  intros ryu bd v ts xs g pre nss base ls post w h R W TB XB S1 NX LX OA G OK NM LV RW.
  destruct (observations_counted v bd ts xs W S1 NX) as (h' & E & L & C & T & S).
  { eapply N.lt_trans; [exact LX|reflexivity]. }
  rewrite OA in E. inversion E; subst h'. clear E.
  assert (RANGE : metric_in_range (hist_sample ts h)).
  { unfold hist_sample, metric_in_range. repeat split; auto. rewrite L, T. exact LX. }
  assert (OK' : Forall event_ok (pre ++ EvSample nss base ls (hist_sample ts h) :: post)).
  { apply Forall_app in OK as [O1 O2]. apply Forall_app. split; [exact O1|]. constructor; [|exact O2].
    cbn [event_ok]. auto. }
  destruct (text_round_trip ryu bd g _ w R G OK' RW) as (s & out & items & E1 & E2 & E3 & (parts & P1 & P2) & _).
  apply Forall2_middle in P1 as (p1 & lines & p2 & -> & _ & EV & _).
  rewrite concat_app in P2. cbn [concat] in P2.
  exists s, out, items, (concat p1), lines, (concat p2). repeat (split; [assumption|]).
  cbn [event_lines metric_lines hist_sample] in EV. now apply histogram_lines_observed with (h := h).
Qed.

(* ------------------------------------------------------------------ *)
(** ** C30: NaN *)

Theorem nan_lowest : forall v t ts x h, f_is_nan x = true -> length (h_buckets h) = length (t :: ts) ->
  exists h', guard_observe v (t :: ts) x h = Done h' /\ one_more 0 (h_buckets h) (h_buckets h') /\
    h_inf h' = h_inf h /\ f_is_nan (h_sum h') = true.
Proof.
  intros v t ts x h X L. unfold guard_observe.
  assert (G : forall le, f_gt x le = false) by (intros le; unfold f_gt; now rewrite f_cmp_nan_l).
  assert (P : partition_point v (fun le => f_gt x le) (t :: ts) = 0%nat).
  { apply partition_point_spec; [lia|]. intros i I. unfold at_index.
    destruct (nth_error (t :: ts) i); [now rewrite G|reflexivity]. }
  rewrite P. unfold hist_observe. cbn [Nat.leb].
  destruct (Nat.ltb_spec 0 (length (h_buckets h))) as [LL|]; [|cbn in L; lia].
  eexists. split; [reflexivity|]. cbn [h_buckets h_inf h_sum].
  split; [now apply update_one_more|]. split; [reflexivity|].
  apply is_nan_decode. unfold af_inc_by, to_bits, from_bits. rewrite decode_add. apply is_nan_decode in X. rewrite X.
  now destruct (f_decode (h_sum h)).
Qed.

(** The sum never recovers. *)
Theorem nan_sum_sticky : forall v ts xs h h', f_is_nan (h_sum h) = true ->
  observe_all v ts xs h = Done h' -> f_is_nan (h_sum h') = true.
Proof.
  intros v ts xs. induction xs as [|x xs IH]; intros h h' N E; cbn [observe_all] in E; [congruence|].
  destruct (guard_observe v ts x h) as [h1|] eqn:G; [|discriminate]. cbn [obind] in E.
  apply (IH h1); [|exact E]. unfold guard_observe, hist_observe in G.
  assert (S : h_sum h1 = f_add (h_sum h) x).
  { destruct (_ <=? _)%nat in G; [|discriminate]. destruct (_ <? _)%nat in G; inversion G; reflexivity. }
  rewrite S. apply is_nan_decode. rewrite decode_add. apply is_nan_decode in N. now rewrite N.
Qed.

(* ------------------------------------------------------------------ *)
(** ** C28: well-formed thresholds *)

(** What [with_buckets] does guarantee. *)
Theorem with_buckets_well_formed : forall bd ts, with_buckets bd ts = Done ts -> (2 <= length ts)%nat ->
  no_nan ts /\
  (forall i j a b, (i < j)%nat -> nth_error ts i = Some a -> nth_error ts j = Some b -> f_lt a b = true) /\
  (forall i t, nth_error ts i = Some t -> (0 < i < length ts - 1)%nat -> f_is_finite t = true).
Proof.
  intros bd ts W L. apply with_buckets_done in W as (_ & _ & A).
  assert (NN : no_nan ts) by (apply ascending_no_nan; [exact A|]; intros t ->; cbn in L; lia).
  split; [exact NN|]. split; [now apply ascending_all|].
  intros i t I B. apply decode_finite. apply finite_iff_val; [apply decode_canon| |].
  { apply not_nan_decode, NN. eapply nth_error_In; eauto. }
  destruct (nth_error ts 0) as [a|] eqn:A0; [|apply nth_error_None in A0; lia].
  destruct (nth_error ts (S i)) as [b|] eqn:B0; [|apply nth_error_None in B0; lia].
  pose proof (ascending_all ts A 0 i a t ltac:(lia) A0 I) as L1. pose proof (ascending_all ts A i (S i) t b ltac:(lia) I B0) as L2.
  apply f_lt_iff in L1 as (_ & _ & L1). apply f_lt_iff in L2 as (_ & _ & L2).
  assert (R : forall x, (- top <= fv x <= top)%Z).
  { intros x. pose proof top_pos. unfold fv. pose proof (decode_canon x) as C.
    destruct (f_decode x) as [s|s| |s m e]; cbn [sval]; try lia; [destruct s; cbn [cond_Zopp]; lia|].
    destruct C as (C1 & C2 & _). pose proof (finite_bounds m e C1 C2). destruct s; cbn [cond_Zopp]; lia. }
  pose proof (R a). pose proof (R b). change (sval (f_decode t)) with (fv t). lia.
Qed.

(** 2^53 and 1: the second threshold rounds to the first. *)
Lemma linear_equal : exists ts, linear_buckets 2 (f_of_Z (2 ^ 53)) f_one = Done ts /\
  nth_error ts 0 = nth_error ts 1 /\ nth_error ts 0 <> None.
Proof. eexists. vm_compute. repeat split; congruence. Qed.

Lemma linear_nan : exists ts t, linear_buckets 2 f_nan f_one = Done ts /\ In t ts /\ f_is_nan t = true.
Proof. exists [f_nan; f_nan], f_nan. vm_compute. auto. Qed.

Lemma linear_infinite : exists ts t, linear_buckets 3 0 9218868437227405311 = Done ts /\ In t ts /\ f_is_infinite t = true.
Proof. eexists. exists f_infinity. split; [vm_compute; reflexivity|]. split; [right; right; left; reflexivity|reflexivity]. Qed.

(** 1.25 *)
Definition f_1_25 : f64 := 4608308318706860032.

Lemma exponential_equal : forall powi, (forall f, powi f 0%Z = f_one) -> (forall f, powi f 1%Z = f) ->
  exists ts, exponential_buckets powi 2 1 f_1_25 = Done ts /\ nth_error ts 0 = nth_error ts 1 /\ nth_error ts 0 <> None.
Proof.
  intros powi P0 P1. unfold exponential_buckets.
  change (f_gt 1 0) with true. change (f_gt f_1_25 f_one) with true. cbn [seq map].
  change (to_i32 (Z.of_nat 0)) with 0%Z. change (to_i32 (Z.of_nat 1)) with 1%Z. rewrite P0, P1.
  change (f_mul 1 f_one) with 1. change (f_mul 1 f_1_25) with 1.
  eexists. split; [reflexivity|]. cbn. split; congruence.
Qed.

Theorem thresholds_not_well_formed :
  (exists t, with_buckets Debug [t] = Done [t] /\ f_is_nan t = true) /\
  (exists ts, with_buckets Debug ts = Done ts /\ length ts = 2%nat /\ In f_infinity ts) /\
  (exists start width ts, f_is_finite start = true /\ f_is_finite width = true /\
     linear_buckets 2 start width = Done ts /\ nth_error ts 0 = nth_error ts 1 /\ nth_error ts 0 <> None) /\
  (exists start width ts t, linear_buckets 2 start width = Done ts /\ In t ts /\ f_is_nan t = true) /\
  (exists start width ts t, f_is_finite start = true /\ f_is_finite width = true /\
     linear_buckets 3 start width = Done ts /\ In t ts /\ f_is_infinite t = true) /\
  (exists start factor, f_is_finite start = true /\ f_is_finite factor = true /\
     forall powi, (forall f, powi f 0%Z = f_one) -> (forall f, powi f 1%Z = f) ->
     exists ts, exponential_buckets powi 2 start factor = Done ts /\ nth_error ts 0 = nth_error ts 1 /\ nth_error ts 0 <> None).
Proof.
  split; [exists f_nan; vm_compute; auto|].
  split; [exists [f_one; f_infinity]; vm_compute; auto|].
  split; [destruct linear_equal as (ts & A & B & C); exists (f_of_Z (2 ^ 53)), f_one, ts; repeat split; auto; vm_compute; reflexivity|].
  split; [destruct linear_nan as (ts & t & A & B & C); eauto 8|].
  split; [destruct linear_infinite as (ts & t & A & B & C); exists 0, 9218868437227405311, ts, t; repeat split; auto; vm_compute; reflexivity|].
  exists 1, f_1_25. split; [reflexivity|]. split; [reflexivity|]. exact exponential_equal.
Qed.

(** ** Exponential buckets *)

Theorem exponential_buckets_panics : forall powi n start factor,
  exponential_buckets powi n start factor = Panic <-> ~ (f_gt start 0 = true /\ f_gt factor f_one = true).
Proof.
  intros powi n start factor. unfold exponential_buckets.
  destruct (f_gt start 0), (f_gt factor f_one); split; try congruence; try tauto; intuition congruence.
Qed.

Lemma to_i32_small : forall z, (0 <= z < 2 ^ 31)%Z -> to_i32 z = z.
Proof.
  intros z Z1. unfold to_i32. rewrite Z.mod_small by lia. destruct (Z.ltb_spec z (2 ^ 31)); lia.
Qed.

(** Non-decreasing as long as [powi] is, and starting at [start] if
    [powi(0)] is one. *)
Theorem exponential_buckets_monotone : forall powi n start factor,
  (Z.of_nat n <= 2 ^ 31)%Z -> f_is_finite start = true ->
  f_gt start 0 = true -> f_gt factor f_one = true ->
  (forall i, (0 <= i < Z.of_nat n)%Z -> f_is_finite (powi factor i) = true) ->
  (forall i j, (0 <= i <= j)%Z -> (j < Z.of_nat n)%Z -> f_le (powi factor i) (powi factor j) = true) ->
  exists ts, exponential_buckets powi n start factor = Done ts /\ length ts = n /\
    (powi factor 0%Z = f_one -> forall t, nth_error ts 0 = Some t -> f_cmp t start = Some Eq) /\
    forall i j a b, (i <= j)%nat -> nth_error ts i = Some a -> nth_error ts j = Some b -> f_le a b = true.
Proof.
  intros powi n start factor N FS GS GF FP MP. unfold exponential_buckets. rewrite GS, GF. eexists. split; [reflexivity|].
  split; [now rewrite map_length, seq_length|].
  set (g := fun i : nat => f_mul start (powi factor (to_i32 (Z.of_nat i)))).
  assert (NTH : forall i t, nth_error (map g (seq 0 n)) i = Some t -> (i < n)%nat /\ t = f_mul start (powi factor (Z.of_nat i))).
  { intros i t H. assert (L : (i < n)%nat) by (rewrite <- (seq_length n 0), <- (map_length g); apply nth_error_Some; congruence).
    split; [exact L|]. rewrite nth_error_map in H.
    rewrite (nth_error_nth' _ 0%nat) in H by (rewrite seq_length; exact L).
    rewrite seq_nth in H by exact L. cbn [option_map Nat.add] in H. unfold g in H. rewrite to_i32_small in H by lia. congruence. }
  assert (V : forall i, (i < n)%nat -> exists P, (P * 2 ^ SC = fv start * fv (powi factor (Z.of_nat i)))%Z /\
     f_is_nan (f_mul start (powi factor (Z.of_nat i))) = false /\ fv (f_mul start (powi factor (Z.of_nat i))) = RV P).
  { intros i L. pose proof (finite_decode _ FS) as F1. pose proof (finite_decode _ (FP (Z.of_nat i) ltac:(lia))) as F2.
    destruct (SFmul_val (f_decode start) (f_decode (powi factor (Z.of_nat i)))) as (P & EP & VP); auto using decode_canon.
    exists P. split; [exact EP|]. split; [now apply mul_not_nan|]. unfold fv. now rewrite decode_mul. }
  pose proof (pow_pos' SC ltac:(rewrite SC_eq; lia)) as PS. split.
  - intros P0 t H. apply NTH in H as [L ->]. destruct (V 0%nat L) as (P & EP & NN & VP).
    change (Z.of_nat 0) with 0%Z in *. rewrite P0 in *.
    rewrite f_cmp_val; [|exact NN|now apply finite_not_nan]. f_equal. apply Z.compare_eq_iff. rewrite VP.
    assert (E1 : fv f_one = (1 * 2 ^ SC)%Z).
    { change f_one with (f_of_Z 1). rewrite fv_of_Z. apply RV_int. lia. }
    rewrite E1 in EP. assert (P = fv start) by nia. subst P.
    apply RV_exact; [apply decode_canon|now apply finite_decode].
  - intros i j a b IJ A B. apply NTH in A as [LA ->]. apply NTH in B as [LB ->].
    destruct (V i LA) as (P & EP & NP & VP). destruct (V j LB) as (Q & EQ & NQ & VQ).
    apply f_le_iff. split; [exact NP|]. split; [exact NQ|]. rewrite VP, VQ. apply RV_mono.
    pose proof (MP (Z.of_nat i) (Z.of_nat j) ltac:(lia) ltac:(lia)) as M. apply f_le_iff in M as (_ & _ & M).
    apply f_gt_iff in GS as (_ & _ & G). change (fv 0) with 0%Z in G.
    assert (P * 2 ^ SC <= Q * 2 ^ SC)%Z by (rewrite EP, EQ; apply Z.mul_le_mono_nonneg_l; lia).
    apply Z.mul_le_mono_pos_r in H; lia.
Qed.

(* ------------------------------------------------------------------ *)
(** ** Durations *)

Theorem duration_secs_sane : forall d, d_secs d < 2 ^ 64 -> d_nanos d < nanos_per_sec ->
  f_is_nan (as_secs_f64 d) = false /\ f_le 0 (as_secs_f64 d) = true.
Proof.
  intros d S N. unfold as_secs_f64. change (2 ^ 64) with 18446744073709551616 in S. unfold nanos_per_sec in *.
  assert (F1 : finite (f_decode (f_of_Z (Z.of_N (d_secs d))))) by (apply of_Z_finite; lia).
  assert (F2 : finite (f_decode (f_of_Z (Z.of_N (d_nanos d))))) by (apply of_Z_finite; lia).
  set (g := f_of_Z (Z.of_N 1000000000)).
  assert (F3 : finite (f_decode g)) by (apply of_Z_finite; lia).
  assert (NN : forall z, (0 <= z)%Z -> (0 <= fv (f_of_Z z))%Z).
  { intros z Z1. rewrite fv_of_Z. rewrite <- RV_0 at 1. apply RV_mono.
    pose proof (pow_pos' SC ltac:(rewrite SC_eq; lia)). nia. }
  assert (G3 : (0 < fv g)%Z).
  { unfold g. rewrite fv_of_Z, RV_int by lia. pose proof (pow_pos' SC ltac:(rewrite SC_eq; lia)). lia. }
  assert (G2 : (0 <= fv (f_of_Z (Z.of_N (d_nanos d))))%Z) by (apply NN; lia).
  change (N.to_nat 0) with 0%nat in *. revert F3 G3 G2 F2. generalize g. clear g.
  generalize (f_of_Z (Z.of_N (d_nanos d))). intros dn g F3 G3 G2 F2.
  destruct (SFdiv_nonneg (f_decode dn) (f_decode g) (decode_canon _) (decode_canon _) F2 F3 G2 G3) as [D1 D2].
  rewrite <- decode_div in D1, D2. revert D1 D2. generalize (f_div dn g). intros q D1 D2.
  assert (NA : f_is_nan (f_add (f_of_Z (Z.of_N (d_secs d))) q) = false).
  { apply add_not_nan; [exact F1|now apply not_nan_decode]. }
  split; [exact NA|]. apply f_le_iff. split; [reflexivity|]. split; [exact NA|]. change (fv 0) with 0%Z.
  assert (DC : finite (f_decode q) \/ f_decode q = S754_infinity false).
  { pose proof top_pos. destruct (f_decode q) as [s|s| |s m e]; cbn [finite]; auto.
    right. destruct s; [cbn [sval cond_Zopp] in D2; lia|reflexivity]. }
  destruct DC as [FQ|IQ].
  - rewrite fv_add_finite by assumption. rewrite <- RV_0 at 1. apply RV_mono.
    pose proof (NN (Z.of_N (d_secs d)) ltac:(lia)). unfold fv in *. lia.
  - unfold fv. rewrite decode_add, IQ. pose proof top_pos.
    destruct (f_decode (f_of_Z (Z.of_N (d_secs d)))); cbn in *; try tauto; unfold cond_Zopp; lia.
Qed.

Lemma elapsed_nanos : forall s n, d_nanos (elapsed s n) < nanos_per_sec /\
  d_secs (elapsed s n) * nanos_per_sec + d_nanos (elapsed s n) = n - s.
Proof.
  intros s n. cbn [elapsed d_nanos d_secs]. split; [apply N.mod_lt; discriminate|].
  rewrite N.mul_comm. symmetry. apply N.div_mod. discriminate.
Qed.

(* ------------------------------------------------------------------ *)
(** ** C31: timers *)

Section TimerProofs.
  Variables T W : Type.
  Variable observe_since : T -> instant -> instant -> W -> outcome (W * duration).
  Notation op := (timer_op T).

  (** The slots after the calls [pre] of a proper sequence. *)
  Definition slots_ok (pre : list op) (slots : list (option (timer T))) : Prop :=
    length slots = length (starts T pre) /\
    forall i t s, nth_error (starts T pre) i = Some (t, s) ->
      ((exists o, In o pre /\ ends T i o) /\ nth_error slots i = Some None) \/
      ((~ exists o, In o pre /\ ends T i o) /\
       nth_error slots i = Some (Some {| t_vec := Some t; t_start := s |})).

  Lemma starts_app : forall a b, starts T (a ++ b) = starts T a ++ starts T b.
  Proof. intros. unfold starts. apply flat_map_app. Qed.

  Lemma ends_fun : forall o i j, ends T i o -> ends T j o -> i = j.
  Proof. intros o i j; destruct o; cbn; (tauto || congruence). Qed.

  Lemma live_slot : forall pre o post slots i, proper T (pre ++ o :: post) -> slots_ok pre slots -> ends T i o ->
    exists t s, nth_error (starts T pre) i = Some (t, s) /\
      nth_error slots i = Some (Some {| t_vec := Some t; t_start := s |}).
  Proof.
    intros pre o post slots i P [L S] E. destruct (P pre o post i eq_refl E) as [I NE].
    destruct (nth_error (starts T pre) i) as [[t s]|] eqn:ST; [|apply nth_error_None in ST; lia].
    exists t, s. split; [reflexivity|]. destruct (S i t s ST) as [[X _]|[_ X]]; [contradiction|exact X].
  Qed.

  Lemma slots_consume : forall pre o slots i, slots_ok pre slots -> ends T i o ->
    (i < length (starts T pre))%nat -> slots_ok (pre ++ [o]) (consume T i slots).
  Proof.
    intros pre o slots i [L S] E I.
    assert (ST : starts T (pre ++ [o]) = starts T pre).
    { rewrite starts_app. destruct o; cbn in *; try contradiction; apply app_nil_r. }
    unfold slots_ok. rewrite ST. split; [unfold consume; now rewrite update_nth_length|].
    intros j t s J. destruct (Nat.eq_dec j i) as [->|N].
    - left. split; [exists o; split; [apply in_or_app; right; left; reflexivity|exact E]|].
      destruct (nth_error slots i) as [x|] eqn:X; [|apply nth_error_None in X; lia].
      unfold consume. now rewrite (update_nth_same _ _ _ _ _ X).
    - unfold consume. rewrite update_nth_other by exact N. destruct (S j t s J) as [[(o' & I1 & I2) X]|[NE X]]; [left|right]; (split; [|exact X]).
      + exists o'. split; [apply in_or_app; auto|exact I2].
      + intros (o' & I1 & I2). apply in_app_or in I1 as [I1|[<-|[]]]; [apply NE; eauto|].
        apply N. eapply ends_fun; eauto.
  Qed.

  Lemma slots_start : forall pre t now slots, slots_ok pre slots -> (forall i o, In o pre -> ends T i o -> (i < length (starts T pre))%nat) ->
    slots_ok (pre ++ [TStart T t now]) (slots ++ [Some (timer_start T t now)]).
  Proof.
    intros pre t now slots [L S] B. unfold slots_ok. rewrite starts_app. cbn [starts flat_map app].
    split; [rewrite !app_length; cbn; lia|].
    assert (EQ : forall i, (exists o, In o (pre ++ [TStart T t now]) /\ ends T i o) <-> exists o, In o pre /\ ends T i o).
    { intros i. split; intros (o & I & E).
      - apply in_app_or in I as [I|[<-|[]]]; [eauto|destruct E].
      - exists o. split; [apply in_or_app; auto|exact E]. }
    intros i t' s' I. destruct (Nat.lt_ge_cases i (length (starts T pre))) as [LT|GE].
    - rewrite nth_error_app1 in I by exact LT. rewrite nth_error_app1 by lia.
      rewrite EQ. now apply S.
    - rewrite nth_error_app2 in I by exact GE. rewrite nth_error_app2 by lia.
      assert (i = length (starts T pre)).
      { destruct (i - length (starts T pre))%nat eqn:D; [lia|]. destruct n; discriminate. }
      subst i. rewrite L, Nat.sub_diag in *. cbn in I. inversion I; subst. right. split; [|reflexivity].
      rewrite EQ. intros (o & I1 & I2). specialize (B _ _ I1 I2). lia.
  Qed.

  Lemma proper_ends_bound : forall ops pre post, proper T ops -> ops = pre ++ post ->
    forall i o, In o pre -> ends T i o -> (i < length (starts T pre))%nat.
  Proof.
    intros ops pre post P E i o I EN. apply in_split in I as (a & b & ->).
    destruct (P a o (b ++ post) i) as [X _]; [rewrite E, <- app_assoc; reflexivity|exact EN|].
    rewrite starts_app, app_length. lia.
  Qed.

  Variable ok : W -> Prop.
  Hypothesis total : forall t s n w, ok w -> exists w' d, observe_since t s n w = Done (w', d) /\ ok w'.

  Lemma run_records : forall rest pre slots w, proper T (pre ++ rest) -> slots_ok pre slots -> ok w ->
    exists rs slots' w', recordings T (pre ++ rest) rest rs /\
      timer_run T W observe_since rest (slots, w) = Done (slots', w') /\
      slots_ok (pre ++ rest) slots' /\
      record_all T W observe_since rs w = Done w'.
  Proof.
    induction rest as [|o rest IH]; intros pre slots w P S OK.
    - exists [], slots, w. rewrite app_nil_r. split; [constructor|]. split; [reflexivity|]. split; [exact S|reflexivity].
    - assert (RW : pre ++ o :: rest = (pre ++ [o]) ++ rest) by now rewrite <- app_assoc.
      assert (P' : proper T ((pre ++ [o]) ++ rest)) by now rewrite <- RW.
      assert (BND : forall i, ends T i o -> (i < length (starts T pre))%nat) by (intros i E; apply (P pre o rest i eq_refl E)).
      destruct o as [t now|i now|i now now'|i now].
      + destruct (IH (pre ++ [TStart T t now]) (slots ++ [Some (timer_start T t now)]) w P') as (rs & sl & w' & R1 & R2 & R3 & R4).
        { apply slots_start; [exact S|]. eapply proper_ends_bound; eauto. }
        { exact OK. }
        exists rs, sl, w'. rewrite RW. split; [apply Rec_skip; [intros ? ? []|exact R1]|]. split; [exact R2|]. auto.
      + destruct (live_slot pre (TForget T i now) rest slots i P S eq_refl) as (t & s & ST & SL).
        destruct (IH (pre ++ [TForget T i now]) (consume T i slots) w P') as (rs & sl & w' & R1 & R2 & R3 & R4).
        { apply slots_consume; [exact S|reflexivity|apply BND; reflexivity]. }
        { exact OK. }
        exists rs, sl, w'. rewrite RW. split; [apply Rec_skip; [intros ? ? []|exact R1]|].
        split; [|auto]. cbn [timer_run timer_step]. rewrite SL.
        cbn [timer_forget timer_drop t_vec t_start obind]. exact R2.
      + destruct (live_slot pre (TObserve T i now now') rest slots i P S eq_refl) as (t & s & ST & SL).
        destruct (total t s now w OK) as (w1 & d & OW & OK1).
        destruct (IH (pre ++ [TObserve T i now now']) (consume T i slots) w1 P') as (rs & sl & w' & R1 & R2 & R3 & R4).
        { apply slots_consume; [exact S|reflexivity|apply BND; reflexivity]. }
        { exact OK1. }
        exists ((i, t, s, now) :: rs), sl, w'. rewrite RW. split.
        { apply Rec_cons; [split; reflexivity| |exact R1].
          rewrite <- RW, starts_app. rewrite nth_error_app1; [exact ST|]. apply nth_error_Some; congruence. }
        split; [|split; [exact R3|]].
        * cbn [timer_run timer_step]. rewrite SL. unfold timer_observe. cbn [t_vec t_start]. rewrite OW.
          cbn [obind timer_drop t_vec fst snd]. exact R2.
        * cbn [record_all]. rewrite OW. cbn [obind fst]. exact R4.
      + destruct (live_slot pre (TDrop T i now) rest slots i P S eq_refl) as (t & s & ST & SL).
        destruct (total t s now w OK) as (w1 & d & OW & OK1).
        destruct (IH (pre ++ [TDrop T i now]) (consume T i slots) w1 P') as (rs & sl & w' & R1 & R2 & R3 & R4).
        { apply slots_consume; [exact S|reflexivity|apply BND; reflexivity]. }
        { exact OK1. }
        exists ((i, t, s, now) :: rs), sl, w'. rewrite RW. split.
        { apply Rec_cons; [split; reflexivity| |exact R1].
          rewrite <- RW, starts_app. rewrite nth_error_app1; [exact ST|]. apply nth_error_Some; congruence. }
        split; [|split; [exact R3|]].
        * cbn [timer_run timer_step]. rewrite SL. unfold timer_drop. cbn [t_vec t_start]. rewrite OW.
          cbn [obind fst]. exact R2.
        * cbn [record_all]. rewrite OW. cbn [obind fst]. exact R4.
  Qed.

  Lemma recordings_In : forall all ops rs, recordings T all ops rs ->
    forall i t s now, In (i, t, s, now) rs -> exists o, In o ops /\ records T i now o /\ nth_error (starts T all) i = Some (t, s).
  Proof.
    intros all ops rs H. induction H as [|o rest rs NR H IH|o rest rs i now t s R ST H IH]; intros j t' s' now' I.
    - destruct I.
    - destruct (IH _ _ _ _ I) as (o' & A & B). exists o'. split; [right; exact A|exact B].
    - destruct I as [I|I].
      + inversion I; subst. exists o. split; [left; reflexivity|auto].
      + destruct (IH _ _ _ _ I) as (o' & A & B). exists o'. split; [right; exact A|exact B].
  Qed.

  Lemma recordings_complete : forall all ops rs, recordings T all ops rs ->
    forall o i now, In o ops -> records T i now o -> exists t s, In (i, t, s, now) rs.
  Proof.
    intros all ops rs H. induction H as [|o rest rs NR H IH|o rest rs i now t s R ST H IH]; intros o' i' now' I R'.
    - destruct I.
    - destruct I as [<-|I]; [exfalso; eapply NR; eauto|eauto].
    - destruct I as [<-|I].
      + exists t, s. left. destruct o; cbn in R, R'; try contradiction; destruct R, R'; congruence.
      + destruct (IH _ _ _ I R') as (t' & s' & X). exists t', s'. right. exact X.
  Qed.

  Lemma records_ends : forall i now o, records T i now o -> ends T i o.
  Proof. intros i now o R; destruct o; cbn in *; tauto. Qed.

  Lemma recordings_NoDup : forall ops pre rest rs, recordings T ops rest rs -> ops = pre ++ rest -> proper T ops ->
    NoDup (map (fun r => fst (fst (fst r))) rs).
  Proof.
    intros ops pre rest rs H. revert pre. induction H as [|o rest rs NR H IH|o rest rs i now t s R ST H IH]; intros pre E P.
    - constructor.
    - apply (IH (pre ++ [o])); [rewrite <- app_assoc; exact E|exact P].
    - cbn [map fst]. constructor.
      + intros I. apply in_map_iff in I as ([[[j t'] s'] now'] & EJ & I). cbn in EJ. subst j.
        destruct (recordings_In _ _ _ H _ _ _ _ I) as (o' & IO & RO & _).
        apply in_split in IO as (a & b & ->).
        destruct (P (pre ++ o :: a) o' b i) as [_ NE]; [rewrite E, <- app_assoc; reflexivity|eapply records_ends; eauto|].
        apply NE. exists o. split; [apply in_or_app; right; left; reflexivity|eapply records_ends; eauto].
      + apply (IH (pre ++ [o])); [rewrite <- app_assoc; exact E|exact P].
  Qed.

  Theorem timers_record_once : forall ops w, proper T ops -> ok w ->
    exists rs slots w', recordings T ops ops rs /\
      timer_run T W observe_since ops ([], w) = Done (slots, w') /\
      record_all T W observe_since rs w = Done w' /\
      NoDup (map (fun r => fst (fst (fst r))) rs) /\
      (forall i, In i (map (fun r => fst (fst (fst r))) rs) <-> exists o now, In o ops /\ records T i now o) /\
      (forall i now, In (TForget T i now) ops -> ~ In i (map (fun r => fst (fst (fst r))) rs)).
  Proof.
    intros ops w P OK. destruct (run_records ops [] [] w P) as (rs & sl & w' & R1 & R2 & R3 & R4); [|exact OK|].
    { split; [reflexivity|]. intros [|i] t s H; discriminate. }
    exists rs, sl, w'. cbn [app] in *. split; [exact R1|]. split; [exact R2|]. split; [exact R4|].
    assert (IFF : forall i, In i (map (fun r => fst (fst (fst r))) rs) <-> exists o now, In o ops /\ records T i now o).
    { intros i. split.
      - intros I. apply in_map_iff in I as ([[[j t] s] now] & <- & I).
        destruct (recordings_In _ _ _ R1 _ _ _ _ I) as (o & A & B & _). exists o, now. auto.
      - intros (o & now & A & B). destruct (recordings_complete _ _ _ R1 _ _ _ A B) as (t & s & I).
        apply in_map_iff. exists (i, t, s, now). auto. }
    split; [apply (recordings_NoDup ops [] ops); auto|]. split; [exact IFF|].
    intros i now F I. apply IFF in I as (o & n' & IO & RO).
    apply in_split in F as (a & b & F). rewrite F in IO.
    apply in_app_or in IO as [IO|[<-|IO]].
    - destruct (P a (TForget T i now) b i F eq_refl) as [_ NE]. apply NE. exists o. split; [exact IO|eapply records_ends; eauto].
    - destruct RO.
    - apply in_split in IO as (c & d & ->).
      destruct (P (a ++ TForget T i now :: c) o d i) as [_ NE]; [rewrite F, <- app_assoc; reflexivity|eapply records_ends; eauto|].
      apply NE. exists (TForget T i now). split; [apply in_or_app; right; left; reflexivity|reflexivity].
  Qed.
End TimerProofs.

(** Timers on one histogram: the state afterwards is that of observing the
    elapsed times, in seconds. *)
Definition since (v : std_version) (ts : list f64) (_ : unit) := guard_observe_since v ts.

Definition seconds_of (r : recording unit) : f64 :=
  match r with (_, _, s, now) => as_secs_f64 (elapsed s now) end.

Lemma record_observe : forall v ts rs h, record_all unit hist (since v ts) rs h = observe_all v ts (map seconds_of rs) h.
Proof.
  intros v ts rs. induction rs as [|[[[i []] s] now] rs IH]; intros h; cbn [record_all observe_all map]; [reflexivity|].
  unfold since at 1, guard_observe_since, guard_observe_duration. cbn [seconds_of].
  destruct (guard_observe v ts (as_secs_f64 (elapsed s now)) h); cbn [obind fst]; [apply IH|reflexivity].
Qed.

Lemma guard_observe_length : forall v ts x h h', guard_observe v ts x h = Done h' -> length (h_buckets h') = length (h_buckets h).
Proof.
  intros v ts x h h'. unfold guard_observe, hist_observe.
  destruct (_ <=? _)%nat; [|discriminate]. destruct (_ <? _)%nat; intros H; inversion H; cbn; [apply update_nth_length|reflexivity].
Qed.

Theorem histogram_timers : forall v ts ops h, length (h_buckets h) = length ts ->
  proper unit ops ->
  exists rs slots h', recordings unit ops ops rs /\
    timer_run unit hist (since v ts) ops ([], h) = Done (slots, h') /\
    observe_all v ts (map seconds_of rs) h = Done h' /\
    NoDup (map (fun r => fst (fst (fst r))) rs) /\
    (forall i, In i (map (fun r => fst (fst (fst r))) rs) <-> exists o now, In o ops /\ records unit i now o) /\
    (forall i now, In (TForget unit i now) ops -> ~ In i (map (fun r => fst (fst (fst r))) rs)).
Proof.
  intros v ts ops h L P.
  destruct (timers_record_once unit hist (since v ts) (fun h => length (h_buckets h) = length ts)) with (ops := ops) (w := h)
    as (rs & sl & h' & R1 & R2 & R3 & R4); auto.
  - intros t s n w LW. destruct (observe_total v ts (as_secs_f64 (elapsed s n)) w) as (w' & E); [exact LW|].
    pose proof (guard_observe_length _ _ _ _ _ E) as L'.
    exists w', (elapsed s n). unfold since, guard_observe_since, guard_observe_duration. rewrite E. split; [reflexivity|congruence].
  - exists rs, sl, h'. rewrite <- record_observe. auto.
Qed.

(** One up and one down, in units of [2 ^ -SC]. *)
Theorem float_gauge_one : forall g, f_is_finite g = true ->
  fv (fgauge_shared FInc g) = RV (fv g + 2 ^ SC) /\ fv (fgauge_shared FDec g) = RV (fv g - 2 ^ SC) /\
  fgauge_mut FInc g = fgauge_shared FInc g /\ fgauge_mut FDec g = fgauge_shared FDec g.
Proof.
  intros g G. assert (V : fv f_one = (2 ^ SC)%Z).
  { change f_one with (f_of_Z 1). rewrite fv_of_Z, RV_int by lia. lia. }
  split; [|split; [|split; apply fgauge_agrees]].
  - change (fgauge_shared FInc g) with (fgauge_shared (FIncBy f_one) g). rewrite float_gauge_inc, V by (exact G || reflexivity). reflexivity.
  - change (fgauge_shared FDec g) with (fgauge_shared (FDecBy f_one) g). destruct (float_gauge_dec f_one g) as (_ & _ & X). rewrite (X G eq_refl), V. reflexivity.
Qed.
