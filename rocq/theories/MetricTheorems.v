(** The theorems about metric states, in the form of P_Metrics.v. *)
From Coq Require Import String List NArith ZArith Bool SpecFloat Lia ZifyBool ZifyN ZifyNat.
From Verif Require Import Base BaseFacts FloatModel FloatFacts FloatOrder FloatArith EncoderModel TextSpec
  MetricModel MetricSpec MetricProofs.
Import ListNotations.
Local Open Scope N_scope.

(* ------------------------------------------------------------------ *)
(** ** C22: exclusive and shared access *)

(** [r] is the result [x], except that a debug build panics if [over]. *)
Definition agrees {A} (bd : build) (over : Prop) (x : A) (r : outcome A) : Prop :=
  (r = Done x /\ (bd = Debug -> ~ over)) \/ (bd = Debug /\ over /\ r = Panic).

Theorem counter_agrees : forall bd x c,
  agrees bd (2 ^ 64 <= c + x) (counter_inc_by x c) (counter_inc_by_mut bd x c) /\
  agrees bd (2 ^ 64 <= c + 1) (counter_inc c) (counter_inc_mut bd c).
Proof.
  assert (H : forall bd x c, agrees bd (2 ^ 64 <= c + x) (wrap64 (c + x)) (u_add bd c x)).
  { intros bd x c. unfold agrees, u_add. change (2 ^ 64) with W64. destruct bd; [|left; split; [reflexivity|discriminate]].
    destruct (N.ltb_spec (c + x) W64).
    - left. unfold wrap64. rewrite N.mod_small by assumption. split; [reflexivity|lia].
    - right. auto. }
  intros. split; apply H.
Qed.

Definition gauge_exact (op : gauge_op) (g : Z) : Z :=
  match op with
  | GInc => (g + 1)%Z | GIncBy x => (g + x)%Z | GDec => (g - 1)%Z | GDecBy x => (g - x)%Z | GSet x => x
  end.

Lemma to_i64_small : forall z, (- 2 ^ 63 <= z < 2 ^ 63)%Z -> to_i64 z = z.
Proof.
  intros z Z1. unfold to_i64, W64. change (Z.of_N 18446744073709551616) with (2 * 2 ^ 63)%Z.
  destruct (Z.lt_ge_cases z 0).
  - replace (z mod (2 * 2 ^ 63))%Z with (z + 2 * 2 ^ 63)%Z.
    + destruct (Z.ltb_spec (z + 2 * 2 ^ 63) (2 ^ 63)); lia.
    + rewrite <- (Z.mod_add z 1) by lia. symmetry. apply Z.mod_small. lia.
  - rewrite Z.mod_small by lia. destruct (Z.ltb_spec z (2 ^ 63)); lia.
Qed.

Theorem gauge_agrees : forall bd op g, (match op with GSet x => - 2 ^ 63 <= x < 2 ^ 63 | _ => True end)%Z ->
  agrees bd (~ (- 2 ^ 63 <= gauge_exact op g < 2 ^ 63)%Z) (gauge_shared op g) (gauge_mut bd op g).
Proof.
  assert (H : forall bd z, agrees bd (~ (- 2 ^ 63 <= z < 2 ^ 63)%Z) (to_i64 z)
    (match bd with Debug => if i_fits z then Done z else Panic | Release => Done (to_i64 z) end)).
  { intros bd z. unfold agrees. destruct bd; [|left; split; [reflexivity|discriminate]].
    unfold i_fits. destruct (Z.leb_spec (- 2 ^ 63) z), (Z.ltb_spec z (2 ^ 63)); cbn [andb].
    - left. rewrite to_i64_small by lia. split; [reflexivity|lia].
    - right. repeat split; lia.
    - right. repeat split; lia.
    - right. repeat split; lia. }
  intros bd [| | | |] g R; try apply H. left. split; [reflexivity|]. cbn [gauge_exact]. tauto.
Qed.

Theorem fgauge_agrees : forall op g, fgauge_mut op g = fgauge_shared op g.
Proof.
  intros [| | | |] g; cbn [fgauge_mut fgauge_shared]; try reflexivity;
    unfold af_dec_by, af_inc_by, af_set_mut, af_get_ex, to_bits, from_bits; apply f_sub_add.
Qed.

Definition bucket_count (bucket : nat) (h : hist) : N :=
  match nth_error (h_buckets h) bucket with Some c => c | None => h_inf h end.

Lemma update_nth_ext : forall A i (f g : A -> A) l, (forall x, nth_error l i = Some x -> f x = g x) ->
  update_nth i f l = update_nth i g l.
Proof.
  intros A i f g l. revert i. induction l as [|y l IH]; intros [|i] H; cbn; auto.
  - now rewrite H.
  - f_equal. now apply IH.
Qed.

Theorem hist_agrees : forall bd bucket x h,
  (exists h', hist_observe bucket x h = Done h' /\
     agrees bd (2 ^ 64 <= bucket_count bucket h + 1) h' (hist_observe_mut bd bucket x h)) \/
  (hist_observe bucket x h = Panic /\ hist_observe_mut bd bucket x h = Panic).
Proof.
  intros bd bucket x h. unfold hist_observe, hist_observe_mut, bucket_count.
  destruct (Nat.leb_spec bucket (length (h_buckets h))); [|right; auto]. left.
  destruct (Nat.ltb_spec bucket (length (h_buckets h))) as [L|G].
  - destruct (nth_error (h_buckets h) bucket) as [c|] eqn:C; [|apply nth_error_None in C; lia].
    eexists. split; [reflexivity|]. destruct (counter_agrees bd 1 c) as [A _].
    unfold counter_inc_by, counter_inc_by_mut in A.
    destruct A as [[E O]|(B & O & E)]; rewrite E; cbn [obind]; [left|right; auto].
    split; [|exact O]. f_equal. f_equal. apply update_nth_ext. intros y Y. congruence.
  - destruct (nth_error (h_buckets h) bucket) as [c|] eqn:C.
    { assert (bucket < length (h_buckets h))%nat by (apply nth_error_Some; congruence). lia. }
    eexists. split; [reflexivity|]. destruct (counter_agrees bd 1 (h_inf h)) as [A _].
    unfold counter_inc_by, counter_inc_by_mut in A.
    destruct A as [[E O]|(B & O & E)]; rewrite E; cbn [obind]; [left|right; auto]. split; [reflexivity|exact O].
Qed.

(** The exclusive guard of a histogram does what the shared one does. *)
Theorem hist_guards_agree : forall v ts x h, mut_observe v ts x h = guard_observe v ts x h.
Proof. reflexivity. Qed.

(* ------------------------------------------------------------------ *)
(** ** C23 *)

Theorem float_gauge_bits : forall x g, af_get (fgauge_shared (FSet x) g) = x /\ af_get (af_new x) = x /\
  af_get_ex (fgauge_mut (FSet x) g) = x.
Proof. auto. Qed.

(** The compare-exchange loop of a single thread ends and stores the sum, however
    many exchanges fail spuriously. *)
Theorem float_gauge_loop : forall fails x g fuel, (fails < fuel)%nat ->
  af_inc_by_loop fuel fails x g = Some (fgauge_shared (FIncBy x) g).
Proof.
  induction fails as [|fails IH]; intros x g [|fuel] F; try lia; cbn [af_inc_by_loop].
  - now rewrite N.eqb_refl.
  - apply IH. lia.
Qed.

Lemma finite_decode : forall x, f_is_finite x = true -> finite (f_decode x).
Proof.
  intros x. unfold f_is_finite, f_is_nan, f_is_infinite, f_decode.
  destruct (f_exp x =? 2047); cbn [andb negb].
  - destruct (f_mant x =? 0); cbn; discriminate.
  - intros _. destruct (if f_exp x =? 0 then _ else _); exact I.
Qed.

Lemma finite_not_nan : forall x, f_is_finite x = true -> f_is_nan x = false.
Proof. intros x. unfold f_is_finite. now destruct (f_is_nan x). Qed.

Lemma decode_finite : forall x, finite (f_decode x) -> f_is_finite x = true.
Proof.
  intros x. unfold f_is_finite, f_is_nan, f_is_infinite, f_decode.
  destruct (f_exp x =? 2047); cbn [andb negb]; [|reflexivity].
  destruct (f_mant x =? 0); cbn; tauto.
Qed.

Theorem float_gauge_dec : forall x g,
  fgauge_shared (FDecBy x) g = f_sub g x /\ fgauge_shared FDec g = f_sub g f_one /\
  (f_is_finite g = true -> f_is_finite x = true -> fv (fgauge_shared (FDecBy x) g) = RV (fv g - fv x)).
Proof.
  intros x g. assert (H : forall y, fgauge_shared (FDecBy y) g = f_sub g y).
  { intros y. cbn [fgauge_shared]. unfold af_dec_by, af_inc_by, to_bits, from_bits. now rewrite f_sub_add. }
  split; [apply H|]. split; [apply (H f_one)|]. intros G X. rewrite H, f_sub_add. unfold fv.
  rewrite decode_add, decode_neg, SFadd_val.
  - now rewrite sval_opp.
  - apply decode_canon.
  - pose proof (decode_canon x). destruct (f_decode x); cbn in *; tauto.
  - now apply finite_decode.
  - apply finite_decode in X. now destruct (f_decode x).
Qed.

Theorem float_gauge_inc : forall x g,
  f_is_finite g = true -> f_is_finite x = true -> fv (fgauge_shared (FIncBy x) g) = RV (fv g + fv x).
Proof.
  intros x g G X. cbn [fgauge_shared]. unfold af_inc_by, to_bits, from_bits, fv.
  rewrite decode_add, SFadd_val; auto using decode_canon, finite_decode.
Qed.

(* ------------------------------------------------------------------ *)
(** ** C29: linear buckets *)

Lemma fv_add_finite : forall a b, finite (f_decode a) -> finite (f_decode b) ->
  fv (f_add a b) = RV (fv a + fv b).
Proof. intros a b A B. unfold fv. rewrite decode_add, SFadd_val; auto using decode_canon. Qed.

Lemma add_not_nan : forall a b, finite (f_decode a) -> f_is_nan b = false -> f_is_nan (f_add a b) = false.
Proof.
  intros a b A B. apply not_nan_decode. rewrite decode_add. apply SFadd_not_nan; [exact A|].
  now apply not_nan_decode.
Qed.

Lemma mul_not_nan : forall a b, finite (f_decode a) -> finite (f_decode b) -> f_is_nan (f_mul a b) = false.
Proof.
  intros a b A B. apply not_nan_decode. rewrite decode_mul. apply SFmul_not_nan; auto using decode_canon.
Qed.

Lemma of_Z_not_nan : forall z, f_is_nan (f_of_Z z) = false.
Proof. intros z. apply not_nan_decode, f_of_Z_not_nan. Qed.

Lemma fv_of_Z : forall z, fv (f_of_Z z) = RV (z * 2 ^ SC).
Proof. apply f_of_Z_val. Qed.

Lemma log2_le : forall V k, (0 < V <= 2 ^ k)%Z -> (0 <= k)%Z -> (Z.log2 V <= k)%Z.
Proof. intros V k V1 K. rewrite <- (Z.log2_pow2 k) by exact K. apply Z.log2_le_mono. lia. Qed.

(** A multiple of its own grid is not changed by rounding. *)
Lemma RP_grid : forall V j, (0 < V < top)%Z -> (V = (V / 2 ^ j) * 2 ^ j)%Z -> (grid V <= j)%Z -> RP V = V.
Proof.
  intros V j V1 D G. unfold RP. destruct (Z.leb_spec V 0); [lia|].
  pose proof (grid_nonneg V) as GN.
  assert (E : (V = (V / 2 ^ j * 2 ^ (j - grid V)) * 2 ^ grid V)%Z).
  { rewrite <- Z.mul_assoc, <- Z.pow_add_r by lia. replace (j - grid V + grid V)%Z with j by lia. exact D. }
  set (q := (V / 2 ^ j * 2 ^ (j - grid V))%Z) in *.
  assert (N : near q V (grid V)).
  { unfold near. rewrite <- E, Z.sub_diag. pose proof (pow_pos' _ GN). cbn [Z.abs]. lia. }
  rewrite (near_unique _ _ _ _ GN (rne_near V _ GN) N), <- E. lia.
Qed.

Lemma RV_int : forall z, (- 2 ^ 53 <= z <= 2 ^ 53)%Z -> RV (z * 2 ^ SC) = (z * 2 ^ SC)%Z.
Proof.
  pose proof SC_eq as HSC. pose proof (pow_pos' SC ltac:(lia)) as P.
  assert (H : forall z, (0 < z <= 2 ^ 53)%Z -> RP (z * 2 ^ SC) = (z * 2 ^ SC)%Z).
  { intros z Z1.
    assert (T : (z * 2 ^ SC < top)%Z).
    { unfold top. rewrite Z.add_comm, Z.pow_add_r by lia. apply Z.mul_lt_mono_pos_r; [lia|].
      eapply Z.le_lt_trans; [apply Z1|]. apply Z.pow_lt_mono_r; lia. }
    destruct (Z.eq_dec z (2 ^ 53)) as [->|N].
    - apply RP_grid with (j := (SC + 53)%Z).
      + lia.
      + rewrite <- Z.pow_add_r by lia. replace (53 + SC)%Z with (SC + 53)%Z by lia.
        rewrite Z.div_same by (pose proof (pow_pos' (SC + 53) ltac:(lia)); lia). lia.
      + unfold grid. rewrite <- Z.pow_add_r, Z.log2_pow2 by lia. lia.
    - apply RP_grid with (j := SC).
      + lia.
      + now rewrite Z.div_mul by lia.
      + unfold grid. rewrite log2_scale by lia.
        assert (Z.log2 z < 53)%Z by (apply Z.log2_lt_pow2; lia). lia. }
  intros z Z1. unfold RV. destruct (Z.ltb_spec (z * 2 ^ SC) 0).
  - replace (- (z * 2 ^ SC))%Z with ((- z) * 2 ^ SC)%Z by lia. rewrite H by nia. lia.
  - destruct (Z.eq_dec z 0) as [->|N]; [reflexivity|]. apply H. nia.
Qed.

Lemma of_Z_finite : forall z, (0 <= z <= 2 ^ 64)%Z -> finite (f_decode (f_of_Z z)).
Proof.
  pose proof SC_eq as HSC. pose proof top_pos as HT. pose proof (pow_pos' SC ltac:(lia)) as P.
  intros z Z1. apply finite_iff_val; [apply decode_canon|apply f_of_Z_not_nan|].
  rewrite f_of_Z_val. assert (0 <= RV (z * 2 ^ SC))%Z.
  { rewrite <- RV_0 at 1. apply RV_mono. nia. }
  assert (RV (z * 2 ^ SC) <= RV (2 ^ (SC + 64)))%Z.
  { apply RV_mono. replace (SC + 64)%Z with (64 + SC)%Z by lia. rewrite Z.pow_add_r by lia.
    apply Z.mul_le_mono_nonneg_r; lia. }
  assert (T : (2 ^ (SC + 64) < top)%Z) by (unfold top; apply Z.pow_lt_mono_r; lia).
  assert (E : RV (2 ^ (SC + 64)) = (2 ^ (SC + 64))%Z).
  { pose proof (pow_pos' (SC + 64) ltac:(lia)) as P1. unfold RV. destruct (Z.ltb_spec (2 ^ (SC + 64)) 0); [lia|].
    apply RP_grid with (j := (SC + 64)%Z).
    - lia.
    - rewrite Z.div_same by lia. lia.
    - unfold grid. rewrite Z.log2_pow2 by lia. lia. }
  lia.
Qed.

(** The value of a linear threshold is a monotone function of the index. *)
Lemma linear_value : forall start width i, f_is_finite start = true -> f_is_finite width = true ->
  f_gt width 0 = true -> (0 <= i <= 2 ^ 64)%Z ->
  exists P, (P * 2 ^ SC = fv width * RV (i * 2 ^ SC))%Z /\
    f_is_nan (f_add start (f_mul width (f_of_Z i))) = false /\
    fv (f_add start (f_mul width (f_of_Z i))) = (if RV P <? top then RV (fv start + RV P) else top)%Z.
Proof.
  intros start width i S W G I. pose proof (of_Z_finite i I) as FI.
  pose proof (finite_decode _ S) as FS. pose proof (finite_decode _ W) as FW.
  destruct (SFmul_val (f_decode width) (f_decode (f_of_Z i))) as (P & EP & VP); auto using decode_canon.
  exists P. rewrite f_of_Z_val in EP. split; [exact EP|].
  pose proof (mul_not_nan width (f_of_Z i) FW FI) as NN.
  split; [now apply add_not_nan|].
  assert (VM : fv (f_mul width (f_of_Z i)) = RV P) by (unfold fv; rewrite decode_mul; exact VP).
  assert (P0 : (0 <= RV P)%Z).
  { rewrite <- RV_0 at 1. apply RV_mono. apply f_gt_iff in G as (_ & _ & G). change (fv 0) with 0%Z in G.
    assert (0 <= RV (i * 2 ^ SC))%Z.
    { rewrite <- RV_0 at 1. apply RV_mono. pose proof (pow_pos' SC ltac:(rewrite SC_eq; lia)). nia. }
    pose proof (pow_pos' SC ltac:(rewrite SC_eq; lia)).
    assert (0 <= P * 2 ^ SC)%Z by (rewrite EP; apply Z.mul_nonneg_nonneg; unfold fv in G; lia). nia. }
  pose proof (RV_range P) as R. pose proof top_pos as T.
  destruct (Z.ltb_spec (RV P) top) as [L|L].
  - rewrite fv_add_finite; [now rewrite VM|exact FS|].
    apply finite_iff_val; [apply decode_canon|now apply not_nan_decode|].
    change (sval (f_decode (f_mul width (f_of_Z i)))) with (fv (f_mul width (f_of_Z i))). lia.
  - assert (E : f_decode (f_mul width (f_of_Z i)) = S754_infinity false).
    { assert (NF : ~ finite (f_decode (f_mul width (f_of_Z i)))).
      { intros F. apply finite_iff_val in F; [|apply decode_canon|now apply not_nan_decode].
        change (sval (f_decode (f_mul width (f_of_Z i)))) with (fv (f_mul width (f_of_Z i))) in F. lia. }
      apply not_nan_decode in NN. unfold fv in VM. destruct (f_decode (f_mul width (f_of_Z i))) as [s|s| |s m e]; cbn in NF; try tauto.
      destruct s; [|reflexivity]. cbn [sval cond_Zopp] in VM. lia. }
    unfold fv. rewrite decode_add, E. destruct (f_decode start); cbn in *; tauto.
Qed.

Theorem linear_buckets_monotone : forall n start width, (Z.of_nat n <= 2 ^ 64)%Z ->
  f_is_finite start = true -> f_is_finite width = true -> f_gt width 0 = true ->
  exists ts, linear_buckets n start width = Done ts /\ length ts = n /\
    (forall t, nth_error ts 0 = Some t -> f_cmp t start = Some Eq) /\
    (forall i j a b, (i <= j)%nat -> nth_error ts i = Some a -> nth_error ts j = Some b -> f_le a b = true).
Proof.
  intros n start width N S W G. unfold linear_buckets. rewrite G. eexists. split; [reflexivity|].
  split; [now rewrite map_length, seq_length|].
  set (g := fun i : nat => f_add start (f_mul width (f_of_Z (Z.of_nat i)))).
  assert (NTH : forall i t, nth_error (map g (seq 0 n)) i = Some t -> (i < n)%nat /\ t = g i).
  { intros i t H. assert (L : (i < n)%nat) by (rewrite <- (seq_length n 0), <- (map_length g); apply nth_error_Some; congruence).
    split; [exact L|]. rewrite nth_error_map in H.
    rewrite (nth_error_nth' _ 0%nat) in H by (rewrite seq_length; exact L).
    rewrite seq_nth in H by exact L. cbn in H. congruence. }
  pose proof top_pos as T. pose proof (pow_pos' SC ltac:(rewrite SC_eq; lia)) as PS.
  split.
  - intros t H. apply NTH in H as [L ->]. unfold g.
    destruct (linear_value start width 0 S W G ltac:(lia)) as (P & EP & NN & V).
    change (Z.of_nat 0) with 0%Z. rewrite f_cmp_val; [|exact NN|now apply finite_not_nan].
    f_equal. apply Z.compare_eq_iff. rewrite V.
    change (0 * 2 ^ SC)%Z with 0%Z in EP. rewrite RV_0 in EP. assert (P = 0)%Z by nia. subst P. rewrite RV_0.
    destruct (Z.ltb_spec 0 top); [|lia]. rewrite Z.add_0_r. unfold fv. apply RV_exact; [apply decode_canon|now apply finite_decode].
  - intros i j a b IJ A B. apply NTH in A as [LA ->]. apply NTH in B as [LB ->]. unfold g.
    destruct (linear_value start width (Z.of_nat i) S W G ltac:(lia)) as (P & EP & NP & VP).
    destruct (linear_value start width (Z.of_nat j) S W G ltac:(lia)) as (Q & EQ & NQ & VQ).
    apply f_le_iff. split; [exact NP|]. split; [exact NQ|]. rewrite VP, VQ.
    apply f_gt_iff in G as (_ & _ & G). change (fv 0) with 0%Z in G.
    assert (R1 : (RV (Z.of_nat i * 2 ^ SC) <= RV (Z.of_nat j * 2 ^ SC))%Z) by (apply RV_mono; nia).
    assert (R2 : (P <= Q)%Z).
    { assert (P * 2 ^ SC <= Q * 2 ^ SC)%Z by (rewrite EP, EQ; apply Z.mul_le_mono_nonneg_l; lia).
      apply Z.mul_le_mono_pos_r in H; lia. }
    apply RV_mono in R2.
    pose proof (RV_range P). pose proof (RV_range Q).
    destruct (Z.ltb_spec (RV P) top), (Z.ltb_spec (RV Q) top).
    + apply RV_mono. lia.
    + apply RV_range.
    + lia.
    + lia.
Qed.

Theorem linear_buckets_panics : forall n start width,
  linear_buckets n start width = Panic <-> f_gt width 0 = false.
Proof. intros n start width. unfold linear_buckets. destruct (f_gt width 0); split; congruence. Qed.

(** Whole numbers up to 2^53: the thresholds are exact, hence well-formed. *)
Theorem linear_buckets_integers : forall n a w, (0 < w)%Z ->
  (- 2 ^ 53 <= a)%Z -> (a <= 2 ^ 53)%Z -> (w * Z.of_nat n <= 2 ^ 53)%Z -> (a + w * Z.of_nat n <= 2 ^ 53)%Z ->
  exists ts, linear_buckets n (f_of_Z a) (f_of_Z w) = Done ts /\
    (forall i t, nth_error ts i = Some t -> f_cmp t (f_of_Z (a + w * Z.of_nat i)) = Some Eq) /\
    well_formed ts.
Proof.
  intros n a w W A1 A2 WN AN. pose proof SC_eq as HSC. pose proof top_pos as HT.
  pose proof (pow_pos' SC ltac:(lia)) as PS.
  assert (BIG : forall z, (- 2 ^ 53 <= z <= 2 ^ 53)%Z -> (- top < z * 2 ^ SC < top)%Z).
  { intros z Z1. unfold top. rewrite Z.add_comm, Z.pow_add_r by lia.
    assert (2 ^ 53 < 2 ^ 1024)%Z by (apply Z.pow_lt_mono_r; lia).
    set (X := (2 ^ 1024)%Z) in *. clearbody X. nia. }
  assert (VI : forall z, (- 2 ^ 53 <= z <= 2 ^ 53)%Z -> fv (f_of_Z z) = (z * 2 ^ SC)%Z).
  { intros z Z1. rewrite fv_of_Z. now apply RV_int. }
  assert (FI : forall z, (- 2 ^ 53 <= z <= 2 ^ 53)%Z -> finite (f_decode (f_of_Z z))).
  { intros z Z1. apply finite_iff_val; [apply decode_canon|apply f_of_Z_not_nan|].
    change (sval (f_decode (f_of_Z z))) with (fv (f_of_Z z)). rewrite VI by exact Z1. now apply BIG. }
  destruct n as [|n'].
  { exists []. unfold linear_buckets. cbn [seq map].
    assert (G : f_gt (f_of_Z w) 0 = true \/ f_gt (f_of_Z w) 0 = false) by (destruct (f_gt _ _); auto).
    assert (GW : f_gt (f_of_Z w) 0 = true).
    { apply f_gt_iff. split; [apply of_Z_not_nan|]. split; [reflexivity|]. change (fv 0) with 0%Z. rewrite fv_of_Z.
      destruct (Z.le_gt_cases w (2 ^ 53)).
      - rewrite RV_int by lia. nia.
      - assert (RV (2 ^ 53 * 2 ^ SC) <= RV (w * 2 ^ SC))%Z by (apply RV_mono; nia).
        rewrite RV_int in H0 by lia. nia. }
    rewrite GW. split; [reflexivity|]. split; [intros [|i] t H; discriminate|].
    split; [intros t []|]. intros [|i] j x y L H; discriminate. }
  set (n := S n') in *. assert (Hn : (1 <= Z.of_nat n)%Z) by lia. clearbody n.
  assert (WB : (w <= 2 ^ 53)%Z) by nia.
  assert (GW : f_gt (f_of_Z w) 0 = true).
  { apply f_gt_iff. split; [apply of_Z_not_nan|]. split; [reflexivity|]. change (fv 0) with 0%Z. rewrite VI by lia. nia. }
  unfold linear_buckets. rewrite GW. eexists. split; [reflexivity|].
  set (g := fun i : nat => f_add (f_of_Z a) (f_mul (f_of_Z w) (f_of_Z (Z.of_nat i)))).
  assert (NTH : forall i t, nth_error (map g (seq 0 n)) i = Some t -> (i < n)%nat /\ t = g i).
  { intros i t H. assert (L : (i < n)%nat) by (rewrite <- (seq_length n 0), <- (map_length g); apply nth_error_Some; congruence).
    split; [exact L|]. rewrite nth_error_map in H.
    rewrite (nth_error_nth' _ 0%nat) in H by (rewrite seq_length; exact L).
    rewrite seq_nth in H by exact L. cbn in H. congruence. }
  assert (VG : forall i, (i < n)%nat -> f_is_nan (g i) = false /\ fv (g i) = ((a + w * Z.of_nat i) * 2 ^ SC)%Z).
  { intros i L. assert (I1 : (Z.of_nat i <= 2 ^ 53)%Z) by nia.
    assert (I2 : (0 <= w * Z.of_nat i <= 2 ^ 53)%Z) by nia.
    assert (I3 : (- 2 ^ 53 <= a + w * Z.of_nat i <= 2 ^ 53)%Z) by nia.
    destruct (SFmul_val (f_decode (f_of_Z w)) (f_decode (f_of_Z (Z.of_nat i)))) as (P & EP & VP);
      [apply decode_canon|apply decode_canon|apply FI; lia|apply FI; lia|].
    change (sval (f_decode (f_of_Z w))) with (fv (f_of_Z w)) in EP.
    change (sval (f_decode (f_of_Z (Z.of_nat i)))) with (fv (f_of_Z (Z.of_nat i))) in EP.
    rewrite !VI in EP by lia. assert (P = w * Z.of_nat i * 2 ^ SC)%Z by nia. subst P. clear EP.
    rewrite RV_int in VP by lia.
    assert (VM : fv (f_mul (f_of_Z w) (f_of_Z (Z.of_nat i))) = (w * Z.of_nat i * 2 ^ SC)%Z).
    { unfold fv. now rewrite decode_mul. }
    assert (NM : f_is_nan (f_mul (f_of_Z w) (f_of_Z (Z.of_nat i))) = false) by (apply mul_not_nan; apply FI; lia).
    split; [apply add_not_nan; [apply FI; lia|exact NM]|]. unfold g.
    rewrite fv_add_finite; [|apply FI; lia|].
    - rewrite VM, VI by lia. rewrite <- Z.mul_add_distr_r. apply RV_int. lia.
    - apply finite_iff_val; [apply decode_canon|now apply not_nan_decode|].
      change (sval (f_decode (f_mul (f_of_Z w) (f_of_Z (Z.of_nat i))))) with (fv (f_mul (f_of_Z w) (f_of_Z (Z.of_nat i)))).
      rewrite VM. apply BIG. lia. }
  split; [|split].
  - intros i t H. apply NTH in H as [L ->]. destruct (VG i L) as [NN V].
    rewrite f_cmp_val by (auto using of_Z_not_nan). f_equal. apply Z.compare_eq_iff. rewrite V, VI; [reflexivity|nia].
  - intros t H. apply In_nth_error in H as [i H]. apply NTH in H as [L ->]. destruct (VG i L) as [NN V].
    apply decode_finite. apply finite_iff_val; [apply decode_canon|now apply not_nan_decode|].
    change (sval (f_decode (g i))) with (fv (g i)). rewrite V. apply BIG. nia.
  - intros i j x y IJ X Y. apply NTH in X as [LX ->]. apply NTH in Y as [LY ->].
    destruct (VG i LX) as [NX VX]. destruct (VG j LY) as [NY VY].
    apply f_lt_iff. split; [exact NX|]. split; [exact NY|]. rewrite VX, VY.
    apply Z.mul_lt_mono_pos_r; [exact PS|]. nia.
Qed.
