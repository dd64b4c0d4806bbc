(** Floats as exact integers: order and rounding without real numbers.

    Every finite binary64 number is an integer multiple of 2^-1074, so a number
    is represented by the integer [value * 2^SC]. *)
From Coq Require Import List NArith ZArith Bool SpecFloat Lia ZifyBool ZifyN ZifyNat.
From Verif Require Import Base FloatModel FloatFacts.
Local Open Scope Z_scope.

Definition SC : Z := 2200.
Lemma SC_eq : SC = 2200. Proof. reflexivity. Qed.
Global Opaque SC.

Definition top : Z := 2 ^ (SC + 1024).

(** The scaled value; infinities sit just above and below all finite numbers. *)
Definition sval (x : spec_float) : Z :=
  match x with
  | S754_zero _ | S754_nan => 0
  | S754_infinity s => cond_Zopp s top
  | S754_finite s m e => cond_Zopp s (Zpos m * 2 ^ (e + SC))
  end.

Lemma pow_pos' : forall k, 0 <= k -> 0 < 2 ^ k.
Proof. intros. apply Z.pow_pos_nonneg; lia. Qed.

Lemma finite_bounds : forall m e, Zpos m < 2 ^ 53 -> -1074 <= e <= 971 ->
  0 < Zpos m * 2 ^ (e + SC) < top.
Proof.
  intros m e M E. pose proof SC_eq. pose proof (pow_pos' (e + SC) ltac:(lia)) as P. split; [lia|].
  unfold top. replace (SC + 1024) with (53 + (971 - e) + (e + SC)) by lia.
  rewrite (Z.pow_add_r 2 (53 + (971 - e))), (Z.pow_add_r 2 53) by lia.
  pose proof (pow_pos' (971 - e) ltac:(lia)). nia.
Qed.

Lemma finite_compare : forall m1 e1 m2 e2,
  Zpos m1 < 2 ^ 53 -> -1074 <= e1 <= 971 -> (Zpos m1 < 2 ^ 52 -> e1 = -1074) ->
  Zpos m2 < 2 ^ 53 -> -1074 <= e2 <= 971 -> (Zpos m2 < 2 ^ 52 -> e2 = -1074) ->
  e1 < e2 -> Zpos m1 * 2 ^ (e1 + SC) < Zpos m2 * 2 ^ (e2 + SC).
Proof.
  intros m1 e1 m2 e2 A1 A2 A3 B1 B2 B3 L. pose proof SC_eq.
  replace (e2 + SC) with ((e2 - e1 - 1) + 1 + (e1 + SC)) by lia.
  rewrite (Z.pow_add_r 2 (e2 - e1 - 1 + 1)), (Z.pow_add_r 2 (e2 - e1 - 1)) by lia.
  pose proof (pow_pos' (e1 + SC) ltac:(lia)). pose proof (pow_pos' (e2 - e1 - 1) ltac:(lia)).
  assert (2 ^ 52 <= Zpos m2) by (destruct (Z.lt_ge_cases (Zpos m2) (2 ^ 52)); lia).
  change (2 ^ 53) with (2 * 2 ^ 52) in *.
  assert (Zpos m1 < Zpos m2 * (2 ^ (e2 - e1 - 1) * 2 ^ 1)) by (change (2 ^ 1) with 2; nia).
  nia.
Qed.

Lemma mul_compare : forall a b c, 0 < c -> (a * c ?= b * c) = (a ?= b).
Proof.
  intros a b c C. destruct (Z.compare_spec a b).
  - subst. apply Z.compare_refl.
  - apply Z.compare_lt_iff. nia.
  - apply Z.compare_gt_iff. nia.
Qed.

(** Comparison is comparison of values. *)
Lemma SFcompare_val : forall a b, canon a -> canon b -> a <> S754_nan -> b <> S754_nan ->
  SFcompare a b = Some (sval a ?= sval b).
Proof.
  assert (T : 0 < top) by (apply pow_pos'; rewrite SC_eq; lia).
  intros [sa|sa| |sa ma ea] [sb|sb| |sb mb eb] A B NA NB; try congruence;
    cbn [SFcompare sval canon] in *;
    try (destruct A as (A1 & A2 & A3)); try (destruct B as (B1 & B2 & B3));
    try (pose proof (finite_bounds _ _ A1 A2)); try (pose proof (finite_bounds _ _ B1 B2));
    f_equal; try reflexivity.
  1-7: repeat match goal with s : bool |- _ => destruct s end; cbn [cond_Zopp]; symmetry;
    rewrite ?Z.compare_lt_iff, ?Z.compare_gt_iff, ?Z.compare_eq_iff; lia.
  assert (E : match ea ?= eb with Eq => Pos.compare_cont Eq ma mb | Lt => Lt | Gt => Gt end =
              (Zpos ma * 2 ^ (ea + SC) ?= Zpos mb * 2 ^ (eb + SC))).
  { destruct (Z.compare_spec ea eb) as [->|L|L].
    - rewrite mul_compare by (apply pow_pos'; rewrite SC_eq; lia). reflexivity.
    - symmetry. apply Z.compare_lt_iff. now apply finite_compare.
    - symmetry. apply Z.compare_gt_iff. now apply finite_compare. }
  destruct sa, sb; cbn [cond_Zopp].
  - rewrite Z.compare_opp, (Z.compare_antisym (Zpos ma * 2 ^ (ea + SC))), <- E. destruct (ea ?= eb); reflexivity.
  - symmetry. apply Z.compare_lt_iff. lia.
  - symmetry. apply Z.compare_gt_iff. lia.
  - exact E.
Qed.

(** ** Rounding to nearest, ties to even, on integers *)

Definition near (q V k : Z) : Prop :=
  2 * Z.abs (V - q * 2 ^ k) <= 2 ^ k /\ (2 * Z.abs (V - q * 2 ^ k) = 2 ^ k -> Z.even q = true).

Lemma near_mono : forall q q' V V' k, near q V k -> near q' V' k -> V <= V' -> 0 <= k -> q <= q'.
Proof.
  intros q q' V V' k [A1 A2] [B1 B2] L K. pose proof (pow_pos' k K) as P.
  destruct (Z.le_gt_cases q q') as [|G]; [assumption|]. exfalso.
  assert (q' + 1 = q) by nia. subst q.
  assert (2 * Z.abs (V - (q' + 1) * 2 ^ k) = 2 ^ k) by nia.
  assert (2 * Z.abs (V' - q' * 2 ^ k) = 2 ^ k) by nia.
  specialize (A2 ltac:(assumption)). specialize (B2 ltac:(assumption)).
  rewrite Z.add_1_r, Z.even_succ, <- Z.negb_even, B2 in A2. discriminate.
Qed.

Lemma near_scale : forall q V k j, 0 <= k -> 0 <= j -> near q V k <-> near q (V * 2 ^ j) (k + j).
Proof.
  intros q V k j K J. unfold near. rewrite Z.pow_add_r by lia. pose proof (pow_pos' j J) as P.
  replace (V * 2 ^ j - q * (2 ^ k * 2 ^ j)) with ((V - q * 2 ^ k) * 2 ^ j) by ring.
  rewrite Z.abs_mul, (Z.abs_eq (2 ^ j)) by lia. set (d := Z.abs _). clearbody d.
  split; intros [A B]; (split; [nia|]); intros E; apply B; nia.
Qed.

Definition rne (V k : Z) : Z :=
  let q := V / 2 ^ k in
  let r := V mod 2 ^ k in
  if 2 * r <? 2 ^ k then q else if 2 ^ k <? 2 * r then q + 1 else if Z.even q then q else q + 1.

Lemma rne_near : forall V k, 0 <= k -> near (rne V k) V k.
Proof.
  intros V k K. unfold rne, near. pose proof (pow_pos' k K) as P.
  pose proof (Z.div_mod V (2 ^ k) ltac:(lia)) as D. pose proof (Z.mod_pos_bound V (2 ^ k) P) as M.
  set (q := V / 2 ^ k) in *. set (r := V mod 2 ^ k) in *. clearbody q r.
  assert (D' : V - q * 2 ^ k = r) by lia. assert (D'' : V - (q + 1) * 2 ^ k = r - 2 ^ k) by lia.
  destruct (Z.ltb_spec (2 * r) (2 ^ k)); [rewrite D'; lia|].
  destruct (Z.ltb_spec (2 ^ k) (2 * r)); [rewrite D''; lia|].
  destruct (Z.even q) eqn:EV; [rewrite D'; split; [lia|auto]|rewrite D''; split; [lia|]].
  intros _. rewrite Z.add_1_r, Z.even_succ, <- Z.negb_even, EV. reflexivity.
Qed.

Lemma near_unique : forall q q' V k, 0 <= k -> near q V k -> near q' V k -> q = q'.
Proof.
  intros q q' V k K A B. apply Z.le_antisymm; eapply near_mono; eauto; lia.
Qed.

(** The grid a positive value is rounded to. *)
Definition grid (V : Z) : Z := Z.max (Z.log2 V + 1 - 53) (SC - 1074).
Definition RP (V : Z) : Z :=
  if V <=? 0 then 0 else Z.min top (rne V (grid V) * 2 ^ grid V).
Definition RV (V : Z) : Z := if V <? 0 then - RP (- V) else RP V.

Lemma grid_nonneg : forall V, 0 <= grid V.
Proof. intros. unfold grid. rewrite SC_eq. lia. Qed.

Lemma near_upper : forall q V k j, 0 <= k <= j -> near q V k -> V <= 2 ^ j -> q * 2 ^ k <= 2 ^ j.
Proof.
  intros q V k j K N L.
  assert (E : 2 ^ j = 2 ^ (j - k) * 2 ^ k) by (rewrite <- Z.pow_add_r by lia; f_equal; lia).
  assert (N' : near (2 ^ (j - k)) (2 ^ j) k).
  { unfold near. rewrite <- E, Z.sub_diag. pose proof (pow_pos' k ltac:(lia)). cbn [Z.abs]. lia. }
  assert (q <= 2 ^ (j - k)) by (eapply near_mono; eauto; lia).
  rewrite E. pose proof (pow_pos' k ltac:(lia)). nia.
Qed.

Lemma near_lower : forall q V k j, 0 <= k <= j -> near q V k -> 2 ^ j <= V -> 2 ^ j <= q * 2 ^ k.
Proof.
  intros q V k j K N L.
  assert (E : 2 ^ j = 2 ^ (j - k) * 2 ^ k) by (rewrite <- Z.pow_add_r by lia; f_equal; lia).
  assert (N' : near (2 ^ (j - k)) (2 ^ j) k).
  { unfold near. rewrite <- E, Z.sub_diag. pose proof (pow_pos' k ltac:(lia)). cbn [Z.abs]. lia. }
  assert (2 ^ (j - k) <= q) by (eapply near_mono; [exact N'|exact N| |]; lia).
  rewrite E. pose proof (pow_pos' k ltac:(lia)). nia.
Qed.

Lemma near_nonneg : forall q V k, 0 <= k -> near q V k -> 0 <= V -> 0 <= q.
Proof.
  intros q V k K N L. eapply (near_mono 0 q 0 V k); eauto.
  unfold near. pose proof (pow_pos' k K). cbn [Z.mul Z.sub Z.opp Z.add Z.abs]. lia.
Qed.

Lemma top_pos : 0 < top.
Proof. apply pow_pos'. rewrite SC_eq. lia. Qed.

Lemma RP_range : forall V, 0 <= RP V <= top.
Proof.
  intros V. unfold RP. pose proof top_pos. destruct (Z.leb_spec V 0); [lia|].
  pose proof (near_nonneg _ V _ (grid_nonneg V) (rne_near V _ (grid_nonneg V)) ltac:(lia)).
  pose proof (pow_pos' _ (grid_nonneg V)). nia.
Qed.

Lemma RP_mono : forall V V', V <= V' -> RP V <= RP V'.
Proof.
  intros V V' L. destruct (Z.leb_spec V 0) as [N|P].
  { unfold RP at 1. destruct (Z.leb_spec V 0); [|lia]. apply RP_range. }
  unfold RP. destruct (Z.leb_spec V 0); [lia|]. destruct (Z.leb_spec V' 0); [lia|].
  apply Z.min_le_compat_l.
  pose proof (rne_near V _ (grid_nonneg V)) as NV. pose proof (rne_near V' _ (grid_nonneg V')) as NV'.
  pose proof (Z.log2_le_mono V V' L) as LL.
  destruct (Z.eq_dec (grid V) (grid V')) as [E|E].
  - rewrite E in *. pose proof (near_mono _ _ _ _ _ NV NV' L (grid_nonneg V')).
    pose proof (pow_pos' _ (grid_nonneg V')). nia.
  - pose proof (Z.log2_spec V P) as [S1 S2]. pose proof (Z.log2_spec V' ltac:(lia)) as [S1' S2'].
    unfold grid in E.
    assert (G' : grid V' = Z.log2 V' + 1 - 53) by (unfold grid in *; lia).
    assert (Z.log2 V < Z.log2 V') by lia.
    transitivity (2 ^ Z.log2 V').
    + apply near_upper with (V := V); [split; [apply grid_nonneg|]|exact NV|].
      * unfold grid in *. lia.
      * apply Z.lt_le_incl. eapply Z.lt_le_trans; [exact S2|]. apply Z.pow_le_mono_r; lia.
    + apply near_lower with (V := V'); [split; [apply grid_nonneg|]|exact NV'|exact S1'].
      rewrite G'. lia.
Qed.

Lemma RV_mono : forall V V', V <= V' -> RV V <= RV V'.
Proof.
  intros V V' L. unfold RV.
  destruct (Z.ltb_spec V 0), (Z.ltb_spec V' 0); try lia.
  - pose proof (RP_mono (- V') (- V)). lia.
  - pose proof (RP_range (- V)). pose proof (RP_range V'). lia.
  - now apply RP_mono.
Qed.

Lemma RV_range : forall V, - top <= RV V <= top.
Proof. intros V. unfold RV. pose proof (RP_range V). pose proof (RP_range (- V)). destruct (V <? 0); lia. Qed.

Lemma RV_opp : forall V, RV (- V) = - RV V.
Proof.
  intros V. unfold RV. destruct (Z.ltb_spec V 0), (Z.ltb_spec (- V) 0); try lia.
  - rewrite Z.opp_involutive. lia.
  - assert (V = 0) by lia. subst. reflexivity.
Qed.

Lemma RV_0 : RV 0 = 0.
Proof. reflexivity. Qed.

(** ** The implementation of rounding computes it *)

(** Invariant of the right shift: what was shifted out is summarised by the two
    flags. *)
Definition shifted (V n : Z) (r : shr_record) : Prop :=
  0 <= shr_m r /\
  exists rest, 0 <= rest < 2 ^ (n - 1) /\
    V = (2 * shr_m r + Z.b2z (shr_r r)) * 2 ^ (n - 1) + rest /\
    shr_s r = negb (rest =? 0).

Lemma shr_1_split : forall r, 0 <= shr_m r ->
  0 <= shr_m (shr_1 r) /\ shr_m r = 2 * shr_m (shr_1 r) + Z.b2z (shr_r (shr_1 r)) /\
  shr_s (shr_1 r) = (shr_r r || shr_s r)%bool.
Proof.
  intros [m a b] H. cbn [shr_m] in H. destruct m as [|p|p]; [cbn; auto with zarith| |lia].
  destruct p as [p|p|]; cbn [shr_1 shr_m shr_r shr_s Z.b2z]; repeat split; lia.
Qed.

Lemma shifted_1 : forall V n r, 1 <= n -> shifted V n r -> shifted V (n + 1) (shr_1 r).
Proof.
  intros V n r N (M & rest & B & E & S). destruct (shr_1_split r M) as (M' & E' & S').
  split; [exact M'|]. exists (Z.b2z (shr_r r) * 2 ^ (n - 1) + rest).
  replace (n + 1 - 1) with (n - 1 + 1) by lia. rewrite Z.pow_add_r by lia. change (2 ^ 1) with 2.
  pose proof (pow_pos' (n - 1) ltac:(lia)).
  split; [destruct (shr_r r); cbn [Z.b2z]; lia|]. split.
  - rewrite E, E'. ring.
  - rewrite S', S. destruct (shr_r r); cbn [Z.b2z orb]; [|f_equal; f_equal; lia].
    symmetry. apply negb_true_iff, Z.eqb_neq. lia.
Qed.

Lemma shifted_0 : forall m, 0 <= m -> shifted m 1 (shr_1 {| shr_m := m; shr_r := false; shr_s := false |}).
Proof.
  intros m M. destruct (shr_1_split {| shr_m := m; shr_r := false; shr_s := false |} M) as (M' & E & S).
  cbn [shr_m shr_r shr_s orb] in *.
  split; [exact M'|]. exists 0. change (1 - 1) with 0. change (2 ^ 0) with 1.
  split; [lia|]. split; [lia|]. rewrite S. reflexivity.
Qed.

Lemma iter_shifted : forall p V n r, 1 <= n -> shifted V n r -> shifted V (n + Zpos p) (iter_pos shr_1 p r).
Proof.
  induction p as [p IH|p IH|]; intros V n r N H; cbn [iter_pos].
  - replace (n + Zpos p~1) with (n + 1 + Zpos p + Zpos p) by lia.
    apply IH; [lia|]. apply IH; [lia|]. now apply shifted_1.
  - replace (n + Zpos p~0) with (n + Zpos p + Zpos p) by lia.
    apply IH; [lia|]. now apply IH.
  - now apply shifted_1.
Qed.

Lemma iter_pos_comm : forall p r, shr_1 (iter_pos shr_1 p r) = iter_pos shr_1 p (shr_1 r).
Proof.
  induction p as [p IH|p IH|]; intros r; cbn [iter_pos]; auto; now rewrite !IH.
Qed.

Lemma iter_pos_S : forall p r, iter_pos shr_1 (Pos.succ p) r = iter_pos shr_1 p (shr_1 r).
Proof.
  induction p as [p IH|p IH|]; intros r; cbn [iter_pos Pos.succ]; auto.
  now rewrite !IH, iter_pos_comm.
Qed.

Lemma shift_shifted : forall p m, 0 <= m ->
  shifted m (Zpos p) (iter_pos shr_1 p {| shr_m := m; shr_r := false; shr_s := false |}).
Proof.
  intros p m M. destruct (Pos.eq_dec p 1) as [->|N]; [now apply shifted_0|].
  rewrite <- (Pos.succ_pred p N), iter_pos_S.
  replace (Zpos (Pos.succ (Pos.pred p))) with (1 + Zpos (Pos.pred p)) by lia.
  apply iter_shifted; [lia|]. now apply shifted_0.
Qed.

Lemma shifted_near : forall V n r, 1 <= n -> shifted V n r ->
  near (round_nearest_even (shr_m r) (loc_of_shr_record r)) V n.
Proof.
  intros V n [m b s] N (M & rest & B & E & S). cbn [shr_m shr_r shr_s] in *.
  unfold near. set (h := 2 ^ (n - 1)) in *.
  assert (H : 2 ^ n = 2 * h).
  { unfold h. replace n with (1 + (n - 1)) at 1 by lia. rewrite Z.pow_add_r by lia. reflexivity. }
  rewrite H. assert (0 < h) by (apply pow_pos'; lia). clearbody h.
  destruct b, s; cbn [loc_of_shr_record round_nearest_even Z.b2z] in *.
  - assert (D : V - (m + 1) * (2 * h) = rest - h) by lia. rewrite D. lia.
  - assert (rest = 0) by lia. subst rest.
    assert (D : V - m * (2 * h) = h) by lia. assert (D' : V - (m + 1) * (2 * h) = - h) by lia.
    destruct (Z.even m) eqn:EV; [rewrite D; split; [lia|auto]|rewrite D'; split; [lia|]].
    intros _. rewrite Z.add_1_r, Z.even_succ, <- Z.negb_even, EV. reflexivity.
  - assert (D : V - m * (2 * h) = rest) by lia. rewrite D. lia.
  - assert (D : V - m * (2 * h) = rest) by lia. rewrite D. lia.
Qed.

Lemma shr_near : forall m e n, 0 <= m -> 0 <= n ->
  let r := fst (shr (shr_record_of_loc m loc_Exact) e n) in
  near (round_nearest_even (shr_m r) (loc_of_shr_record r)) m n.
Proof.
  intros m e [|p|p] M N; [| |lia]; cbn [shr fst shr_record_of_loc].
  - cbn [shr_m loc_of_shr_record round_nearest_even]. unfold near. change (2 ^ 0) with 1.
    replace (m - m * 1) with 0 by lia. cbn [Z.abs]. lia.
  - apply shifted_near; [lia|]. now apply shift_shifted.
Qed.

Lemma digits_log2 : forall p, Zpos (digits2_pos p) = Z.log2 (Zpos p) + 1.
Proof.
  intros p. pose proof (digits2_bounds p) as B.
  rewrite (Z.log2_unique (Zpos p) (Zpos (digits2_pos p) - 1)); [lia|lia|].
  replace (Z.succ (Zpos (digits2_pos p) - 1)) with (Zpos (digits2_pos p)) by lia. exact B.
Qed.

Lemma log2_scale : forall m k, 0 < m -> 0 <= k -> Z.log2 (m * 2 ^ k) = Z.log2 m + k.
Proof. intros. rewrite Z.log2_mul_pow2; lia. Qed.

Lemma cond_Zopp_min : forall s a b, cond_Zopp s (Z.min a b) = cond_Zopp s (if a <=? b then a else b).
Proof. intros [] a b; cbn [cond_Zopp]; destruct (Z.leb_spec a b); lia. Qed.

Lemma round_aux_val : forall s p e, - SC <= e -> e <= fexp 53 1024 (Zpos (digits2_pos p) + e) ->
  sval (binary_round_aux 53 1024 s (Zpos p) e loc_Exact) = cond_Zopp s (RP (Zpos p * 2 ^ (e + SC))).
Proof.
  intros s p e ES EF. pose proof SC_eq as HSC. pose proof top_pos as HT.
  pose proof (pow_pos' (e + SC) ltac:(lia)) as PE.
  set (V := Zpos p * 2 ^ (e + SC)).
  assert (VP : 0 < V) by (unfold V; lia).
  assert (HG : grid V = fexp 53 1024 (Zpos (digits2_pos p) + e) + SC).
  { unfold grid, V. rewrite log2_scale, digits_log2, fexp_eq by lia. lia. }
  unfold RP. destruct (Z.leb_spec V 0); [lia|]. rewrite HG.
  unfold binary_round_aux.
  destruct (shr_fexp_spec (Zpos p) e loc_Exact ltac:(lia) EF) as (m1 & e1 & S1 & S2 & B1 & B2 & B3 & B4 & B5).
  pose proof (shr_near (Zpos p) e (fexp 53 1024 (Zdigits2 (Zpos p) + e) - e) ltac:(lia) ltac:(cbn [Zdigits2]; lia)) as NR.
  cbn zeta in NR. unfold shr_fexp in *. cbn [Zdigits2] in *.
  set (f := fexp 53 1024 (Zpos (digits2_pos p) + e)) in *.
  destruct (shr (shr_record_of_loc (Zpos p) loc_Exact) e (f - e)) as [r1 e1'] eqn:ES1.
  cbn [fst snd] in *. subst e1' e1.
  pose proof (round_near (shr_m r1) (loc_of_shr_record r1)) as RN.
  set (m2 := round_nearest_even (shr_m r1) (loc_of_shr_record r1)) in *. clearbody m2.
  rewrite S1 in RN. clear S1 r1 ES1.
  assert (NV : near m2 V (f + SC)).
  { apply (near_scale _ _ _ (e + SC)) in NR; [|lia|lia].
    replace (f - e + (e + SC)) with (f + SC) in NR by lia. exact NR. }
  rewrite (near_unique _ m2 V (f + SC) ltac:(lia) (rne_near V (f + SC) ltac:(lia)) NV).
  assert (M2 : 0 <= m2) by lia. clear NR.
  assert (DD : (m2 < 2 ^ 53 -> Zdigits2 m2 <= 53) /\ (2 ^ 52 <= m2 -> 52 < Zdigits2 m2)).
  { destruct m2 as [|q|q]; [cbn; lia| |lia]. cbn [Zdigits2]. split.
    - intros. apply digits_le; lia.
    - apply digits_ge. lia. }
  assert (TOP : top = 2 ^ 53 * 2 ^ (971 + SC)).
  { unfold top. rewrite <- Z.pow_add_r by lia. f_equal; lia. }
  destruct (Z.eq_dec m2 (2 ^ 53)) as [E53|N53].
  - (* carry into the next binade *)
    assert (f3 : fexp 53 1024 (Zdigits2 m2 + f) - f = 1).
    { rewrite E53. change (Zdigits2 (2 ^ 53)) with 54. rewrite fexp_eq. lia. }
    rewrite f3, E53.
    change (shr (shr_record_of_loc (2 ^ 53) loc_Exact) f 1) with
      ({| shr_m := 2 ^ 52; shr_r := false; shr_s := false |}, f + 1).
    cbn [shr_m]. change (2 ^ 52) with (Zpos 4503599627370496) at 1.
    rewrite cond_Zopp_min. change (2 ^ 53) with (2 * 4503599627370496) in *.
    rewrite TOP. pose proof (pow_pos' (f + SC) ltac:(lia)).
    destruct (Z.leb_spec (f + 1) (1024 - 53)) as [L|L]; cbn [sval].
    + destruct (Z.leb_spec (2 * 4503599627370496 * 2 ^ (971 + SC)) (2 * 4503599627370496 * 2 ^ (f + SC))) as [C|C].
      * exfalso. assert (2 ^ (f + SC) < 2 ^ (971 + SC)) by (apply Z.pow_lt_mono_r; lia). lia.
      * f_equal. replace (f + 1 + SC) with (1 + (f + SC)) by lia. rewrite Z.pow_add_r by lia. lia.
    + destruct (Z.leb_spec (2 * 4503599627370496 * 2 ^ (971 + SC)) (2 * 4503599627370496 * 2 ^ (f + SC))) as [C|C].
      * now rewrite TOP.
      * exfalso. assert (2 ^ (971 + SC) <= 2 ^ (f + SC)) by (apply Z.pow_le_mono_r; lia). lia.
  - assert (M53 : m2 < 2 ^ 53) by lia.
    assert (f3 : fexp 53 1024 (Zdigits2 m2 + f) - f = 0).
    { rewrite fexp_eq. destruct (Z.le_gt_cases (2 ^ 52) m2); lia. }
    rewrite f3. cbn [shr shr_record_of_loc shr_m].
    rewrite cond_Zopp_min. pose proof (pow_pos' (f + SC) ltac:(lia)).
    destruct m2 as [|q|q]; [| |lia].
    + cbn [sval Z.mul]. destruct (Z.leb_spec top 0); [lia|]. now destruct s.
    + destruct (Z.leb_spec f (1024 - 53)) as [L|L]; cbn [sval].
      * destruct (finite_bounds q f) as [_ FB]; [lia|lia|].
        destruct (Z.leb_spec top (Zpos q * 2 ^ (f + SC))); [lia|reflexivity].
      * destruct (Z.leb_spec top (Zpos q * 2 ^ (f + SC))) as [C|C]; [reflexivity|exfalso].
        assert (2 ^ 52 <= Zpos q) by (destruct (Z.lt_ge_cases (Zpos q) (2 ^ 52)); lia).
        assert (PL : 2 ^ (1 + (971 + SC)) <= 2 ^ (f + SC)) by (apply Z.pow_le_mono_r; lia).
        rewrite (Z.pow_add_r 2 1) in PL by lia.
        rewrite TOP in C. change (2 ^ 53) with (2 * 2 ^ 52) in C. change (2 ^ 1) with 2 in *.
        pose proof (pow_pos' (971 + SC) ltac:(lia)).
        set (u := 2 ^ (971 + SC)) in *. set (v := 2 ^ (f + SC)) in *. clearbody u v.
        assert (2 ^ 52 * (2 * u) <= Zpos q * v) by (apply Z.mul_le_mono_nonneg; lia). lia.
Qed.

Lemma binary_round_val : forall s p e, - SC <= e -> 53 - SC <= Zpos (digits2_pos p) + e ->
  sval (binary_round 53 1024 s p e) = cond_Zopp s (RP (Zpos p * 2 ^ (e + SC))).
Proof.
  intros s p e ES ED. pose proof SC_eq as HSC. unfold binary_round.
  destruct (shl_align_spec p e (fexp 53 1024 (Zpos (digits2_pos p) + e))) as (m1 & e1 & -> & E1 & M & D).
  rewrite fexp_eq in E1.
  rewrite round_aux_val; [|lia|rewrite D, fexp_eq; lia].
  rewrite M. f_equal. f_equal. rewrite <- Z.mul_assoc, <- Z.pow_add_r by lia. f_equal. f_equal. lia.
Qed.

Lemma normalize_val : forall m e z, -1074 <= e ->
  sval (binary_normalize 53 1024 m e z) = RV (m * 2 ^ (e + SC)).
Proof.
  intros m e z E. pose proof SC_eq as HSC. pose proof (pow_pos' (e + SC) ltac:(lia)).
  destruct m as [|p|p]; cbn [binary_normalize]; [reflexivity| |];
    rewrite binary_round_val by lia; cbn [cond_Zopp]; unfold RV.
  - destruct (Z.ltb_spec (Zpos p * 2 ^ (e + SC)) 0); [lia|reflexivity].
  - destruct (Z.ltb_spec (Zneg p * 2 ^ (e + SC)) 0); [|lia]. f_equal. f_equal. lia.
Qed.

Definition finite (x : spec_float) : Prop :=
  match x with S754_zero _ | S754_finite _ _ _ => True | _ => False end.

(** Representable values are not changed by rounding. *)
Lemma RV_exact : forall x, canon x -> finite x -> RV (sval x) = sval x.
Proof.
  intros [s|s| |s m e] C F; try easy. cbn [sval]. destruct C as (A & B & D). pose proof SC_eq.
  assert (E : RP (Zpos m * 2 ^ (e + SC)) = Zpos m * 2 ^ (e + SC)).
  { pose proof (round_exact false m e A B D) as R.
    pose proof (round_aux_val false m e ltac:(lia)) as V. rewrite R in V. cbn [sval cond_Zopp] in V.
    symmetry. apply V. rewrite fexp_eq. destruct (Z.lt_ge_cases (Zpos m) (2 ^ 52)) as [L|L].
    - specialize (D L). lia.
    - apply digits_ge in L; lia. }
  destruct (finite_bounds m e A B) as [P _].
  unfold RV. destruct s; cbn [cond_Zopp].
  - destruct (Z.ltb_spec (- (Zpos m * 2 ^ (e + SC))) 0); [|lia]. rewrite Z.opp_involutive, E. reflexivity.
  - destruct (Z.ltb_spec (Zpos m * 2 ^ (e + SC)) 0); [lia|exact E].
Qed.

(** Addition, multiplication and conversion round the exact result. *)
Lemma SFadd_val : forall a b, canon a -> canon b -> finite a -> finite b ->
  sval (SFadd 53 1024 a b) = RV (sval a + sval b).
Proof.
  intros a b CA CB FA FB. pose proof (RV_exact a CA FA) as EA. pose proof (RV_exact b CB FB) as EB.
  destruct a as [sa|sa| |sa ma ea]; try easy; destruct b as [sb|sb| |sb mb eb]; try easy; cbn [SFadd].
  - destruct (Bool.eqb sa sb); reflexivity.
  - transitivity (RV (sval (S754_finite sa ma ea))); [congruence|].
    f_equal. symmetry. apply Z.add_0_r.
  - destruct CA as (A1 & A2 & A3), CB as (B1 & B2 & B3). pose proof SC_eq.
    rewrite normalize_val by lia. cbn [sval].
    destruct (shl_align_spec ma ea (Z.min ea eb)) as (m1 & e1 & -> & E1 & M1 & _).
    destruct (shl_align_spec mb eb (Z.min ea eb)) as (m2 & e2 & -> & E2 & M2 & _).
    cbn [fst]. f_equal. rewrite Z.mul_add_distr_r.
    assert (X : forall (s : bool) m e e0, -1074 <= e0 <= e ->
      cond_Zopp s (Zpos m * 2 ^ (e - e0)) * 2 ^ (e0 + SC) = cond_Zopp s (Zpos m * 2 ^ (e + SC))).
    { intros s m e e0 L. replace (e + SC) with ((e - e0) + (e0 + SC)) by lia.
      rewrite (Z.pow_add_r 2 (e - e0)) by lia. destruct s; cbn [cond_Zopp]; ring. }
    rewrite M1, M2, E1, E2.
    replace (Z.min ea (Z.min ea eb)) with (Z.min ea eb) by lia.
    replace (Z.min eb (Z.min ea eb)) with (Z.min ea eb) by lia.
    rewrite !X by lia. reflexivity.
Qed.

Lemma SFmul_val : forall a b, canon a -> canon b -> finite a -> finite b ->
  exists P, P * 2 ^ SC = sval a * sval b /\ sval (SFmul 53 1024 a b) = RV P.
Proof.
  intros a b CA CB FA FB. pose proof SC_eq as HSC.
  destruct a as [sa|sa| |sa ma ea]; try easy; destruct b as [sb|sb| |sb mb eb]; try easy; cbn [SFmul].
  1-3: exists 0; cbn [sval]; rewrite RV_0; split; lia.
  destruct CA as (A1 & A2 & A3), CB as (B1 & B2 & B3).
  exists (cond_Zopp (xorb sa sb) (Zpos (ma * mb) * 2 ^ (ea + eb + SC))). split.
  - cbn [sval]. rewrite Pos2Z.inj_mul.
    assert (E : 2 ^ (ea + SC) * 2 ^ (eb + SC) = 2 ^ (ea + eb + SC) * 2 ^ SC).
    { rewrite <- !Z.pow_add_r by lia. f_equal. lia. }
    destruct sa, sb; cbn [xorb cond_Zopp]; nia.
  - rewrite round_aux_val.
    + pose proof (pow_pos' (ea + eb + SC) ltac:(lia)). unfold RV.
      destruct (xorb sa sb); cbn [cond_Zopp].
      * destruct (Z.ltb_spec (- (Zpos (ma * mb) * 2 ^ (ea + eb + SC))) 0); [|lia]. now rewrite Z.opp_involutive.
      * destruct (Z.ltb_spec (Zpos (ma * mb) * 2 ^ (ea + eb + SC)) 0); [lia|reflexivity].
    + lia.
    + rewrite fexp_eq. pose proof (digits_mul ma mb) as D.
      destruct (Z.lt_ge_cases (Zpos ma) (2 ^ 52)) as [LA|LA], (Z.lt_ge_cases (Zpos mb) (2 ^ 52)) as [LB|LB].
      * specialize (A3 LA). specialize (B3 LB). lia.
      * apply digits_ge in LB; lia.
      * apply digits_ge in LA; lia.
      * apply digits_ge in LA; apply digits_ge in LB; lia.
Qed.

Lemma f_of_Z_val : forall z, sval (f_decode (f_of_Z z)) = RV (z * 2 ^ SC).
Proof.
  intros z. unfold f_of_Z. destruct z as [|p|p].
  - reflexivity.
  - rewrite decode_encode by apply normalize_canon. rewrite normalize_val by lia. reflexivity.
  - rewrite decode_encode by apply normalize_canon. rewrite normalize_val by lia. reflexivity.
Qed.
