(** How far [Duration::as_secs_f64] is from the exact number of seconds. *)
From Coq Require Import List NArith ZArith Bool SpecFloat Lia ZifyBool ZifyN ZifyNat.
From Verif Require Import Base FloatModel FloatFacts FloatOrder FloatArith MetricModel MetricSpec MetricProofs MetricTheorems.
Local Open Scope Z_scope.

(** ** Rounding a quotient *)

(** The location of a remainder, as two more bits of the quotient. *)
Definition loc_bits (l : location) : Z :=
  match l with
  | loc_Exact => 0
  | loc_Inexact Lt => 1
  | loc_Inexact Eq => 2
  | loc_Inexact Gt => 3
  end.

Lemma loc_bits_near : forall n r, 0 < n -> 0 <= r < n -> Z.abs (4 * r - loc_bits (new_location n r) * n) < n.
Proof.
  intros n r N R. unfold new_location, new_location_even, new_location_odd.
  destruct (Z.even n) eqn:EV; (destruct (Zeq_bool r 0) eqn:Z0;
    [apply Zeq_bool_eq in Z0; subst r; cbn [loc_bits]; lia|apply Zeq_bool_neq in Z0]).
  - destruct (Z.compare_spec (2 * r) n); cbn [loc_bits]; lia.
  - assert (ODD : n <> 2 * r). { intros ->. rewrite Z.even_mul in EV. discriminate EV. }
    destruct (Z.compare_spec (2 * r + 1) n); cbn [loc_bits]; lia.
Qed.

Definition with_bits (q : positive) (l : location) : positive :=
  match l with
  | loc_Exact => q~0~0
  | loc_Inexact Lt => q~0~1
  | loc_Inexact Eq => q~1~0
  | loc_Inexact Gt => q~1~1
  end%positive.

Lemma with_bits_val : forall q l, Zpos (with_bits q l) = 4 * Zpos q + loc_bits l.
Proof. intros q [|[]]; cbn [with_bits loc_bits]; lia. Qed.
Lemma with_bits_digits : forall q l, Zpos (digits2_pos (with_bits q l)) = Zpos (digits2_pos q) + 2.
Proof. intros q [|[]]; cbn [with_bits digits2_pos]; lia. Qed.
Lemma with_bits_shr : forall q l,
  shr_1 (shr_1 (shr_record_of_loc (Zpos (with_bits q l)) loc_Exact)) = shr_record_of_loc (Zpos q) l.
Proof. intros q [|[]]; reflexivity. Qed.

Lemma shr_with_bits : forall q l e n, 0 <= n ->
  shr (shr_record_of_loc (Zpos (with_bits q l)) loc_Exact) (e - 2) (n + 2) = shr (shr_record_of_loc (Zpos q) l) e n.
Proof.
  intros q l e n N. rewrite <- (with_bits_shr q l). set (r := shr_record_of_loc (Zpos (with_bits q l)) loc_Exact).
  destruct n as [|p|p]; [| |lia].
  - cbn [Z.add shr iter_pos]. f_equal. lia.
  - replace (Zpos p + 2) with (Zpos (Pos.succ (Pos.succ p))) by lia. cbn [shr]. rewrite !iter_pos_S. f_equal. lia.
Qed.

Lemma round_aux_with_bits : forall s q e l, e <= fexp 53 1024 (Zpos (digits2_pos q) + e) ->
  binary_round_aux 53 1024 s (Zpos q) e l = binary_round_aux 53 1024 s (Zpos (with_bits q l)) (e - 2) loc_Exact.
Proof.
  intros s q e l E. unfold binary_round_aux at 1 2. unfold shr_fexp at 1 3. cbn [Zdigits2].
  rewrite with_bits_digits. replace (Zpos (digits2_pos q) + 2 + (e - 2)) with (Zpos (digits2_pos q) + e) by lia.
  set (f := fexp 53 1024 (Zpos (digits2_pos q) + e)) in *.
  replace (f - (e - 2)) with (f - e + 2) by lia. rewrite shr_with_bits by lia. reflexivity.
Qed.

(** ** Relative error of rounding *)

Lemma RP_error : forall V, 2 ^ (SC - 1022) <= V <= top -> 2 ^ 53 * Z.abs (RP V - V) <= V.
Proof.
  intros V [L H]. pose proof SC_eq as HSC. pose proof (pow_pos' (SC - 1022) ltac:(lia)) as P0.
  unfold RP. destruct (Z.leb_spec V 0); [lia|].
  pose proof (Z.log2_spec V ltac:(lia)) as [L1 L2].
  assert (LG : SC - 1022 <= Z.log2 V). { rewrite <- (Z.log2_pow2 (SC - 1022)) by lia. now apply Z.log2_le_mono. }
  assert (G : grid V = Z.log2 V - 52) by (unfold grid; lia).
  pose proof (grid_nonneg V) as GN. pose proof (rne_near V (grid V) GN) as NR. pose proof NR as [A _].
  assert (U : rne V (grid V) * 2 ^ grid V <= top).
  { unfold top in *. apply near_upper with (V := V); [|exact NR|exact H]. split; [exact GN|].
    rewrite G. assert (Z.log2 V <= SC + 1024) by (apply log2_le; lia). lia. }
  rewrite Z.min_r by exact U. rewrite G in *.
  assert (E : 2 ^ Z.log2 V = 2 ^ 52 * 2 ^ (Z.log2 V - 52)) by (rewrite <- Z.pow_add_r by lia; f_equal; lia).
  set (g := 2 ^ (Z.log2 V - 52)) in *. set (y := rne V (Z.log2 V - 52)) in *.
  replace (Z.abs (y * g - V)) with (Z.abs (V - y * g)) by lia.
  change (2 ^ 53) with (2 ^ 52 * 2). clearbody g y. lia.
Qed.

Lemma RV_error : forall V, 2 ^ (SC - 1022) <= V <= top -> 2 ^ 53 * Z.abs (RV V - V) <= V.
Proof.
  intros V H. pose proof (pow_pos' (SC - 1022) ltac:(rewrite SC_eq; lia)).
  unfold RV. destruct (Z.ltb_spec V 0); [lia|]. now apply RP_error.
Qed.

(** ** Dividing two whole numbers below 2^53 *)

Lemma of_Z_parts : forall z, 1 <= z < 2 ^ 53 -> exists m e,
  f_decode (f_of_Z z) = S754_finite false m e /\ 2 ^ 52 <= Zpos m < 2 ^ 53 /\ -52 <= e <= 0 /\ Zpos m = z * 2 ^ (- e).
Proof.
  intros z Z1. pose proof SC_eq as HSC. pose proof (pow_pos' SC ltac:(lia)) as P.
  pose proof (fv_of_Z z) as V. rewrite RV_int in V by lia. unfold fv in V.
  pose proof (of_Z_finite z ltac:(lia)) as F. pose proof (decode_canon (f_of_Z z)) as C.
  destruct (f_decode (f_of_Z z)) as [s|s| |s m e]; cbn [finite sval canon] in *; try (exfalso; nia || tauto).
  destruct C as (C1 & C2 & C3).
  pose proof (pow_pos' (e + SC) ltac:(lia)) as PE.
  destruct s; cbn [cond_Zopp] in V; [exfalso; nia|].
  assert (M52 : 2 ^ 52 <= Zpos m).
  { destruct (Z.lt_ge_cases (Zpos m) (2 ^ 52)) as [L|L]; [|exact L]. rewrite (C3 L) in V.
    exfalso. assert (X : 2 ^ (-1074 + SC) * 2 ^ 1074 = 2 ^ SC) by (rewrite <- Z.pow_add_r by lia; f_equal; lia).
    pose proof (pow_pos' (-1074 + SC) ltac:(lia)) as P1.
    assert (2 ^ 52 < 2 ^ 1074) by (apply Z.pow_lt_mono_r; lia).
    set (a := 2 ^ (-1074 + SC)) in *. set (b := 2 ^ 1074) in *. rewrite <- X in V. clearbody a b. nia. }
  assert (E0 : e <= 0).
  { destruct (Z.le_gt_cases e 0) as [|G]; [assumption|]. exfalso.
    assert (X : 2 ^ (e + SC) = 2 * 2 ^ (e - 1) * 2 ^ SC).
    { change (2 * 2 ^ (e - 1)) with (2 ^ 1 * 2 ^ (e - 1)). rewrite <- !Z.pow_add_r by lia. f_equal. lia. }
    rewrite X in V. pose proof (pow_pos' (e - 1) ltac:(lia)). set (a := 2 ^ (e - 1)) in *.
    assert (Zpos m * (2 * a) = z) by (apply Z.mul_reg_r with (2 ^ SC); [lia|]; lia).
    change (2 ^ 53) with (2 * 2 ^ 52) in *. clearbody a. nia. }
  assert (X : Zpos m = z * 2 ^ (- e)).
  { assert (Y : 2 ^ SC = 2 ^ (- e) * 2 ^ (e + SC)) by (rewrite <- Z.pow_add_r by lia; f_equal; lia).
    rewrite Y in V. apply Z.mul_reg_r with (2 ^ (e + SC)); [lia|]. lia. }
  exists m, e. split; [reflexivity|]. split; [lia|]. split; [|exact X]. split; [|exact E0].
  destruct (Z.le_gt_cases (-52) e) as [|G]; [assumption|]. exfalso.
  assert (2 ^ 53 <= 2 ^ (- e)) by (apply Z.pow_le_mono_r; lia). set (b := 2 ^ (- e)) in *. clearbody b. nia.
Qed.

Lemma digits_53 : forall m, 2 ^ 52 <= Zpos m < 2 ^ 53 -> Zpos (digits2_pos m) = 53.
Proof.
  intros m [A B]. apply digits_le in B; [|lia]. apply digits_ge in A; lia.
Qed.

Lemma div_near : forall a b, 1 <= a < 2 ^ 53 -> 1 <= b < 2 ^ 53 ->
  exists V, fv (f_div (f_of_Z a) (f_of_Z b)) = RP V /\ 2 ^ 54 * Z.abs (V * b - a * 2 ^ SC) <= V * b.
Proof.
  intros a b A B. pose proof SC_eq as HSC.
  destruct (of_Z_parts a A) as (m1 & e1 & D1 & M1 & R1 & X1). destruct (of_Z_parts b B) as (m2 & e2 & D2 & M2 & R2 & X2).
  unfold fv. rewrite decode_div, D1, D2. cbn [SFdiv xorb].
  unfold SFdiv_core_binary. cbn [Zdigits2]. rewrite (digits_53 m1 M1), (digits_53 m2 M2).
  assert (F : fexp 53 1024 (53 + e1 - (53 + e2)) = e1 - e2 - 53) by (rewrite fexp_eq; lia).
  rewrite F. rewrite Z.min_l by lia. replace (e1 - e2 - (e1 - e2 - 53)) with 53 by lia. cbv iota.
  rewrite Z.shiftl_mul_pow2 by lia.
  pose proof (Z_div_mod (Zpos m1 * 2 ^ 53) (Zpos m2) eq_refl) as DM.
  destruct (Z.div_eucl (Zpos m1 * 2 ^ 53) (Zpos m2)) as [q r]. destruct DM as [DM R].
  assert (Q : 2 ^ 52 <= q) by nia.
  destruct q as [|q|q]; [lia| |lia].
  pose proof (loc_bits_near (Zpos m2) r eq_refl R) as LB.
  set (l := new_location (Zpos m2) r) in *.
  assert (QD : 53 <= Zpos (digits2_pos q)) by (apply digits_ge in Q; lia).
  rewrite round_aux_with_bits by (rewrite fexp_eq; lia).
  rewrite round_aux_val; [|lia|rewrite with_bits_digits, fexp_eq; lia]. cbn [cond_Zopp].
  exists (Zpos (with_bits q l) * 2 ^ (e1 - e2 - 53 - 2 + SC)). split; [reflexivity|].
  rewrite with_bits_val. set (c := loc_bits l) in *. clearbody c l. clear QD.
  set (E := 2 ^ (e1 - e2 - 53 - 2 + SC)).
  assert (PE : 0 < E) by (apply pow_pos'; lia).
  assert (C0 : 0 <= c) by nia.
  (* a * 2^SC / b is m1 * 2^55 / m2 times E *)
  assert (EX : a * 2 ^ SC * Zpos m2 = Zpos m1 * 2 ^ 55 * E * b).
  { rewrite X1, X2. unfold E.
    replace (a * 2 ^ SC * (b * 2 ^ (- e2))) with (a * b * (2 ^ SC * 2 ^ (- e2))) by ring.
    replace (a * 2 ^ (- e1) * 2 ^ 55 * 2 ^ (e1 - e2 - 53 - 2 + SC) * b) with (a * b * (2 ^ (- e1) * (2 ^ 55 * 2 ^ (e1 - e2 - 53 - 2 + SC)))) by ring.
    rewrite <- !Z.pow_add_r by lia. do 2 f_equal. lia. }
  set (S := 2 ^ SC) in *. clearbody S E.
  set (U := 4 * Zpos q + c) in *.
  assert (NEAR : Z.abs (U * Zpos m2 - Zpos m1 * 2 ^ 55) < Zpos m2).
  { change (2 ^ 55) with (2 ^ 53 * 4). unfold U. 
    replace ((4 * Zpos q + c) * Zpos m2 - Zpos m1 * (2 ^ 53 * 4)) with (- (4 * r - c * Zpos m2)) by lia. lia. }
  assert (UL : 2 ^ 54 <= U) by (unfold U; change (2 ^ 54) with (4 * 2 ^ 52); lia).
  clearbody U.
  assert (PEB : 0 < E * b) by (apply Z.mul_pos_pos; lia).
  assert (STEP : Z.abs (U * E * b - a * S) * Zpos m2 = Z.abs (U * Zpos m2 - Zpos m1 * 2 ^ 55) * (E * b)).
  { rewrite <- (Z.abs_eq (Zpos m2)) at 1 by lia. rewrite <- (Z.abs_eq (E * b)) at 1 by nia. rewrite <- !Z.abs_mul. f_equal.
    replace ((U * E * b - a * S) * Zpos m2) with (U * E * b * Zpos m2 - a * S * Zpos m2) by ring. rewrite EX. ring. }
  assert (LT : Z.abs (U * E * b - a * S) < E * b).
  { apply Z.mul_lt_mono_pos_r with (Zpos m2); [lia|]. rewrite STEP. rewrite (Z.mul_comm (E * b)). apply Z.mul_lt_mono_pos_r; [exact PEB|exact NEAR]. }
  assert (2 ^ 54 * (E * b) <= U * (E * b)) by (apply Z.mul_le_mono_nonneg_r; lia). lia.
Qed.

(** ** Seconds *)

Lemma seconds_accurate : forall d, (d_secs d < 2 ^ 64)%N -> (d_nanos d < nanos_per_sec)%N ->
  let nanos := Z.of_N (d_secs d * 10 ^ 9 + d_nanos d) in
  f_is_finite (as_secs_f64 d) = true /\
  2 ^ 51 * Z.abs (fv (as_secs_f64 d) * 10 ^ 9 - nanos * 2 ^ SC) <= nanos * 2 ^ SC.
Proof.
  intros [ds dn] S N. cbn [d_secs d_nanos] in *. cbv zeta. unfold nanos_per_sec in N. change (2 ^ 64)%N with 18446744073709551616%N in S.
  pose proof SC_eq as HSC. pose proof (pow_pos' SC ltac:(lia)) as PS. pose proof top_pos as HT.
  unfold as_secs_f64. cbn [d_secs d_nanos]. unfold nanos_per_sec. change (Z.of_N 1000000000) with 1000000000.
  replace (Z.of_N (ds * 10 ^ 9 + dn)) with (Z.of_N ds * 1000000000 + Z.of_N dn) by lia. change (10 ^ 9) with 1000000000.
  set (s := Z.of_N ds). set (n := Z.of_N dn).
  assert (SB : 0 <= s < 2 ^ 64) by (unfold s; change (2 ^ 64) with 18446744073709551616; lia).
  assert (NB : 0 <= n < 1000000000) by (unfold n; lia). clearbody s n. clear ds dn S N.
  assert (LOW : 2 ^ (SC - 1022) * 2 ^ 1022 = 2 ^ SC) by (rewrite <- Z.pow_add_r by lia; f_equal; lia).
  pose proof (pow_pos' (SC - 1022) ltac:(lia)) as PL.
  assert (B1022 : 2 ^ 100 <= 2 ^ 1022) by (apply Z.pow_le_mono_r; lia).
  assert (HIGH : 2 ^ 100 * 2 ^ SC <= top) by (unfold top; rewrite <- Z.pow_add_r by lia; apply Z.pow_le_mono_r; lia).
  assert (LOWS : 2 ^ (SC - 1022) * 2 ^ 100 <= 2 ^ SC) by (rewrite <- LOW; apply Z.mul_le_mono_nonneg_l; lia).
  clear LOW B1022.
  (* the whole seconds *)
  assert (A : 2 ^ 53 * Z.abs (fv (f_of_Z s) - s * 2 ^ SC) <= s * 2 ^ SC).
  { rewrite fv_of_Z. destruct (Z.eq_dec s 0) as [->|NZ]; [reflexivity|]. apply RV_error.
    set (S := 2 ^ SC) in *. set (L := 2 ^ (SC - 1022)) in *. clearbody S L. 
    change (2 ^ 64) with 18446744073709551616 in SB. change (2 ^ 100) with 1267650600228229401496703205376 in *. nia. }
  assert (FA : finite (f_decode (f_of_Z s))) by (apply of_Z_finite; lia).
  (* the fraction *)
  assert (B : finite (f_decode (f_div (f_of_Z n) (f_of_Z 1000000000))) /\
    2 ^ 52 * Z.abs (fv (f_div (f_of_Z n) (f_of_Z 1000000000)) * 1000000000 - n * 2 ^ SC) <= n * 2 ^ SC).
  { destruct (Z.eq_dec n 0) as [->|NZ].
    { assert (E : f_div (f_of_Z 0) (f_of_Z 1000000000) = 0%N) by (vm_compute; reflexivity). rewrite E. split; [exact I|]. change (fv 0%N) with 0. rewrite !Z.mul_0_l, Z.sub_0_r. cbn [Z.abs]. lia. }
    destruct (div_near n 1000000000 ltac:(lia) ltac:(lia)) as (V & EV & NV).
    set (q := f_div (f_of_Z n) (f_of_Z 1000000000)) in *.
    assert (VB : 2 ^ (SC - 1022) <= V <= top).
    { set (S := 2 ^ SC) in *. set (L := 2 ^ (SC - 1022)) in *. set (T := top) in *. clearbody S L T q. clear A.
      change (2 ^ 54) with 18014398509481984 in NV. change (2 ^ 100) with 1267650600228229401496703205376 in *. nia. }
    pose proof (RP_error V VB) as RE. rewrite <- EV in RE.
    assert (FB : finite (f_decode q)).
    { assert (NN : f_is_nan q = false).
      { destruct (SFdiv_nonneg (f_decode (f_of_Z n)) (f_decode (f_of_Z 1000000000)) (decode_canon _) (decode_canon _)) as [D1 _].
        - apply of_Z_finite; lia.
        - apply of_Z_finite; lia.
        - change (0 <= fv (f_of_Z n)). rewrite fv_of_Z, RV_int by lia. nia.
        - change (0 < fv (f_of_Z 1000000000)). rewrite fv_of_Z, RV_int by lia. nia.
        - rewrite <- decode_div in D1. now apply not_nan_decode. }
      apply finite_iff_val; [apply decode_canon|now apply not_nan_decode|]. change (sval (f_decode q)) with (fv q).
      set (S := 2 ^ SC) in *. set (L := 2 ^ (SC - 1022)) in *. set (T := top) in *. set (x := fv q) in *. clearbody S L T x. clear A.
      change (2 ^ 54) with 18014398509481984 in NV. change (2 ^ 53) with 9007199254740992 in RE. change (2 ^ 100) with 1267650600228229401496703205376 in *. nia. }
    split; [exact FB|]. set (x := fv q) in *. set (S := 2 ^ SC) in *. clearbody x S. clear - RE NV.
    change (2 ^ 54) with 18014398509481984 in NV. change (2 ^ 53) with 9007199254740992 in RE. change (2 ^ 52) with 4503599627370496. lia. }
  destruct B as [FB B]. set (q := f_div (f_of_Z n) (f_of_Z 1000000000)) in *.
  assert (NA : f_is_nan (f_add (f_of_Z s) q) = false) by (apply add_not_nan; [exact FA|apply not_nan_decode; intros E; now rewrite E in FB]).
  pose proof (fv_add_finite (f_of_Z s) q FA FB) as C.
  destruct (Z.eq_dec (fv (f_of_Z s) + fv q) 0) as [E0|NE0].
  { assert (Z00 : s = 0 /\ n = 0).
    { set (S := 2 ^ SC) in *. set (x := fv q) in *. set (y := fv (f_of_Z s)) in *. clearbody S x y.
      change (2 ^ 52) with 4503599627370496 in B. change (2 ^ 53) with 9007199254740992 in A. split; nia. }
    destruct Z00 as [-> ->]. rewrite C, E0. change (RV 0) with 0. split; [|reflexivity].
    apply decode_finite, finite_iff_val; [apply decode_canon|now apply not_nan_decode|].
    change (sval (f_decode (f_add (f_of_Z 0) q))) with (fv (f_add (f_of_Z 0) q)). rewrite C, E0. change (RV 0) with 0. lia. }
  assert (VB : 2 ^ (SC - 1022) <= fv (f_of_Z s) + fv q <= top /\ 1 <= s * 1000000000 + n).
  { assert (PN : 1 <= s * 1000000000 + n).
    { assert (s <> 0 \/ n <> 0); [|lia]. destruct (Z.eq_dec s 0) as [->|]; [|now left]. destruct (Z.eq_dec n 0) as [->|]; [|now right].
      exfalso. apply NE0. lia. }
    split; [|exact PN].
    set (S := 2 ^ SC) in *. set (L := 2 ^ (SC - 1022)) in *. set (T := top) in *. set (x := fv q) in *. set (y := fv (f_of_Z s)) in *. clearbody S L T x y.
    change (2 ^ 64) with 18446744073709551616 in SB. 
    change (2 ^ 52) with 4503599627370496 in B. change (2 ^ 53) with 9007199254740992 in A. change (2 ^ 100) with 1267650600228229401496703205376 in *.
    assert (SS : s * S <= 18446744073709551616 * S) by (apply Z.mul_le_mono_nonneg_r; lia). assert (NS : n * S <= 1000000000 * S) by (apply Z.mul_le_mono_nonneg_r; lia). assert (GS : 1 * S <= (s * 1000000000 + n) * S) by (apply Z.mul_le_mono_nonneg_r; lia).
    clear - A B SS NS GS LOWS HIGH PL PS. nia. }
  destruct VB as [VB PN]. pose proof (RV_error _ VB) as RE. rewrite <- C in RE.
  split.
  - apply decode_finite, finite_iff_val; [apply decode_canon|now apply not_nan_decode|].
    change (sval (f_decode (f_add (f_of_Z s) q))) with (fv (f_add (f_of_Z s) q)).
    set (S := 2 ^ SC) in *. set (T := top) in *. set (x := fv q) in *. set (y := fv (f_of_Z s)) in *. set (w := fv (f_add (f_of_Z s) q)) in *. clearbody S T x y w.
    change (2 ^ 64) with 18446744073709551616 in SB. change (2 ^ 52) with 4503599627370496 in B. change (2 ^ 53) with 9007199254740992 in *. change (2 ^ 100) with 1267650600228229401496703205376 in *.
    assert (SS : s * S <= 18446744073709551616 * S) by (apply Z.mul_le_mono_nonneg_r; lia). assert (NS : n * S <= 1000000000 * S) by (apply Z.mul_le_mono_nonneg_r; lia). 
    clear - A B SS NS RE HIGH PS HT. nia.
  - set (S := 2 ^ SC) in *. set (x := fv q) in *. set (y := fv (f_of_Z s)) in *. set (w := fv (f_add (f_of_Z s) q)) in *. clearbody S x y w.
    change (2 ^ 51) with 2251799813685248. change (2 ^ 52) with 4503599627370496 in B. change (2 ^ 53) with 9007199254740992 in *.
    clear - A B RE. lia.
Qed.
