(** Further facts about float arithmetic: negation, subtraction, division. *)
From Coq Require Import List NArith ZArith Bool SpecFloat Lia ZifyBool ZifyN ZifyNat.
From Verif Require Import Base FloatModel FloatFacts FloatOrder.
Local Open Scope Z_scope.

(** ** Negation *)

Lemma neg_sign : forall x, f_sign (f_neg x) = negb (f_sign x).
Proof.
  intros x. unfold f_sign, f_neg. rewrite N.lxor_spec, N.pow2_bits_true. now destruct (N.testbit x 63).
Qed.

Lemma neg_exp : forall x, f_exp (f_neg x) = f_exp x.
Proof.
  intros x. unfold f_exp, f_neg. apply N.bits_inj. intros n.
  destruct (N.lt_ge_cases n 11).
  - rewrite !N.mod_pow2_bits_low, !N.div_pow2_bits, N.lxor_spec, N.pow2_bits_false by lia. now destruct (N.testbit x _).
  - now rewrite !N.mod_pow2_bits_high.
Qed.

Lemma neg_mant : forall x, f_mant (f_neg x) = f_mant x.
Proof.
  intros x. unfold f_mant, f_neg. apply N.bits_inj. intros n.
  destruct (N.lt_ge_cases n 52).
  - rewrite !N.mod_pow2_bits_low, N.lxor_spec, N.pow2_bits_false by lia. now destruct (N.testbit x _).
  - now rewrite !N.mod_pow2_bits_high.
Qed.

Lemma decode_neg : forall x, f_decode (f_neg x) = SFopp (f_decode x).
Proof.
  intros x. unfold f_decode. rewrite neg_sign, neg_exp, neg_mant.
  destruct (f_exp x =? 2047)%N.
  - destruct (f_mant x =? 0)%N; reflexivity.
  - destruct (if (f_exp x =? 0)%N then _ else _); reflexivity.
Qed.

Lemma sval_opp : forall x, sval (SFopp x) = - sval x.
Proof. intros [[]|[]| |[] m e]; cbn [SFopp sval negb cond_Zopp]; lia. Qed.

(** Subtraction is addition of the negation. *)
Lemma SFsub_add : forall a b, SFsub 53 1024 a b = SFadd 53 1024 a (SFopp b).
Proof.
  intros [sa|sa| |sa ma ea] [sb|sb| |sb mb eb]; cbn [SFsub SFadd SFopp]; try reflexivity.
  f_equal. destruct sb; cbn [negb cond_Zopp]; lia.
Qed.

Lemma f_sub_add : forall a b, f_sub a b = f_add a (f_neg b).
Proof. intros a b. unfold f_sub, f_add. now rewrite decode_neg, SFsub_add. Qed.

(** ** Results that are not NaN *)

Lemma round_aux_not_nan : forall s m e l, 0 <= m -> e <= fexp 53 1024 (Zdigits2 m + e) ->
  binary_round_aux 53 1024 s m e l <> S754_nan.
Proof.
  intros s m e l M E. unfold binary_round_aux.
  destruct (shr_fexp_spec m e l M E) as (m1 & e1 & S1 & S2 & B1 & B2 & B3 & _).
  destruct (shr_fexp 53 1024 m e l) as [r1 e1']. cbn [fst snd] in *. subst e1'. rewrite S1.
  set (m2 := round_nearest_even m1 (loc_of_shr_record r1)).
  assert (R : m2 = m1 \/ m2 = m1 + 1) by apply round_near. clearbody m2. clear S1 r1.
  assert (M2 : 0 <= m2) by lia.
  assert (DD : Zdigits2 m2 <= 54 /\ (2 ^ 52 <= m2 -> 52 < Zdigits2 m2)).
  { destruct m2 as [|p|p]; [cbn; lia| |lia]. cbn [Zdigits2]. split.
    - apply digits_le; [lia|]. change (2 ^ 54) with (2 * 2 ^ 53). lia.
    - apply digits_ge. lia. }
  assert (E2 : e1 <= fexp 53 1024 (Zdigits2 m2 + e1)).
  { rewrite fexp_eq. destruct (Z.le_gt_cases (2 ^ 52) m2); lia. }
  destruct (shr_fexp_spec m2 e1 loc_Exact M2 E2) as (m3 & e3 & S3 & S4 & C1 & C2 & C3 & _).
  destruct (shr_fexp 53 1024 m2 e1 loc_Exact) as [r3 e3']. cbn [fst snd] in *. subst e3'. rewrite S3.
  destruct m3 as [|p|p]; [discriminate| |lia]. destruct (e3 <=? 1024 - 53); discriminate.
Qed.

Lemma binary_round_not_nan : forall s p e, binary_round 53 1024 s p e <> S754_nan.
Proof.
  intros s m e. unfold binary_round.
  destruct (shl_align_spec m e (fexp 53 1024 (Zpos (digits2_pos m) + e))) as (m1 & e1 & -> & E1 & _ & D).
  apply round_aux_not_nan; [lia|]. cbn [Zdigits2]. rewrite D. lia.
Qed.

Lemma normalize_not_nan : forall m e z, binary_normalize 53 1024 m e z <> S754_nan.
Proof. intros [|p|p] e z; cbn [binary_normalize]; [discriminate| |]; apply binary_round_not_nan. Qed.

Lemma SFadd_not_nan : forall a b, finite a -> b <> S754_nan -> SFadd 53 1024 a b <> S754_nan.
Proof.
  intros [sa|sa| |sa ma ea] [sb|sb| |sb mb eb] F B; cbn [SFadd]; try easy.
  - now destruct (Bool.eqb sa sb).
  - apply normalize_not_nan.
Qed.

Lemma SFmul_not_nan : forall a b, canon a -> canon b -> finite a -> finite b -> SFmul 53 1024 a b <> S754_nan.
Proof.
  intros [sa|sa| |sa ma ea] [sb|sb| |sb mb eb] A B F1 F2; cbn [SFmul]; try easy.
  apply round_aux_not_nan; [lia|]. cbn [Zdigits2 canon] in *. rewrite fexp_eq.
  destruct A as (A1 & A2 & A3), B as (B1 & B2 & B3). pose proof (digits_mul ma mb) as D.
  destruct (Z.lt_ge_cases (Zpos ma) (2 ^ 52)) as [LA|LA], (Z.lt_ge_cases (Zpos mb) (2 ^ 52)) as [LB|LB].
  - specialize (A3 LA). specialize (B3 LB). lia.
  - apply digits_ge in LB; lia.
  - apply digits_ge in LA; lia.
  - apply digits_ge in LA; apply digits_ge in LB; lia.
Qed.

Lemma f_of_Z_not_nan : forall z, f_decode (f_of_Z z) <> S754_nan.
Proof.
  intros [|p|p]; unfold f_of_Z; [discriminate| |]; rewrite decode_encode by apply normalize_canon; apply normalize_not_nan.
Qed.

Lemma finite_iff_val : forall x, canon x -> x <> S754_nan -> (finite x <-> - top < sval x < top).
Proof.
  pose proof top_pos. intros [s|s| |s m e] C N; cbn [finite sval]; split; try easy; try lia; intros F.
  - destruct s; cbn [cond_Zopp] in F; lia.
  - destruct C as (A & B & _). pose proof (finite_bounds m e A B). destruct s; cbn [cond_Zopp]; lia.
Qed.

(** ** Division *)

Lemma div_core : forall m1 e1 m2 e2, exists q e l,
  SFdiv_core_binary 53 1024 (Zpos m1) e1 (Zpos m2) e2 = (q, e, l) /\ 0 <= q /\
  e <= fexp 53 1024 (Zdigits2 q + e).
Proof.
  intros m1 e1 m2 e2. unfold SFdiv_core_binary. cbn [Zdigits2].
  set (d1 := Zpos (digits2_pos m1)). set (d2 := Zpos (digits2_pos m2)).
  set (f := fexp 53 1024 (d1 + e1 - (d2 + e2))). set (e' := Z.min f (e1 - e2)).
  set (s := e1 - e2 - e'). assert (S : 0 <= s) by lia.
  set (m' := match s with Z0 => Zpos m1 | Zpos _ => Z.shiftl (Zpos m1) s | Zneg _ => 0 end).
  assert (M' : m' = Zpos m1 * 2 ^ s).
  { unfold m'. destruct s as [|p|p] eqn:ES; [cbn; lia| |lia]. rewrite Z.shiftl_mul_pow2 by lia. reflexivity. }
  pose proof (Z_div_mod m' (Zpos m2) eq_refl) as DM.
  destruct (Z.div_eucl m' (Zpos m2)) as [q r]. destruct DM as [DM R].
  exists q, e', (new_location (Zpos m2) r). split; [reflexivity|].
  pose proof (pow_pos' s S) as P.
  assert (Q : 0 <= q) by nia. split; [exact Q|].
  pose proof (digits2_bounds m1) as [A1 A2]. pose proof (digits2_bounds m2) as [B1 B2].
  fold d1 in A1, A2. fold d2 in B1, B2.
  assert (D1 : 0 < d1) by (unfold d1; lia). assert (D2 : 0 < d2) by (unfold d2; lia).
  assert (QL : d1 + s - d2 <= Zdigits2 q).
  { destruct (Z.le_gt_cases (d1 + s - d2) 0) as [L|G].
    { pose proof (Zdigits2_nonneg q). lia. }
    assert (2 ^ (d1 + s - d2 - 1) <= q).
    { assert (E : 2 ^ (d1 - 1) * 2 ^ s = 2 ^ (d1 + s - d2 - 1) * 2 ^ d2).
      { rewrite <- !Z.pow_add_r by lia. f_equal. lia. }
      pose proof (pow_pos' (d1 + s - d2 - 1) ltac:(lia)) as P1. pose proof (pow_pos' d2 ltac:(lia)) as P2.
      set (X := 2 ^ (d1 + s - d2 - 1)) in *. set (Y := 2 ^ d2) in *.
      assert (X * Y <= Zpos m2 * q + r).
      { rewrite <- DM, M', <- E. apply Z.mul_le_mono_nonneg_r; lia. }
      destruct (Z.le_gt_cases X q) as [|XQ]; [assumption|]. exfalso. clearbody X Y.
      assert (Zpos m2 * (q + 1) <= Zpos m2 * X) by (apply Z.mul_le_mono_nonneg_l; lia).
      assert (Zpos m2 * X < Y * X) by (apply Z.mul_lt_mono_pos_r; lia). lia. }
    destruct q as [|q|q]; [pose proof (pow_pos' (d1 + s - d2 - 1) ltac:(lia)); lia| |lia].
    cbn [Zdigits2]. apply digits_ge in H; lia. }
  rewrite fexp_eq. assert (Hs : s = e1 - e2 - e') by reflexivity.
  assert (Hf : f = Z.max (d1 + e1 - (d2 + e2) - 53) (-1074)) by reflexivity.
  assert (He : e' <= f) by (unfold e'; lia). clearbody s f e' d1 d2. lia.
Qed.

Lemma SFdiv_canon : forall a b, canon a -> canon b -> canon (SFdiv 53 1024 a b).
Proof.
  intros [sa|sa| |sa ma ea] [sb|sb| |sb mb eb] A B; cbn [SFdiv]; try exact I.
  destruct (div_core ma ea mb eb) as (q & e & l & -> & Q & E). now apply round_aux_canon.
Qed.

Lemma decode_div : forall a b, f_decode (f_div a b) = SFdiv 53 1024 (f_decode a) (f_decode b).
Proof. intros. apply decode_encode, SFdiv_canon; apply decode_canon. Qed.

Lemma f_div_bound : forall a b, (f_div a b < 2 ^ 64)%N.
Proof. intros. apply encode_bound, SFdiv_canon; apply decode_canon. Qed.

Lemma round_aux_sign : forall s m e l, match binary_round_aux 53 1024 s m e l with
  | S754_zero s' | S754_infinity s' | S754_finite s' _ _ => s' = s | S754_nan => True end.
Proof.
  intros s m e l. unfold binary_round_aux. destruct (shr_fexp 53 1024 m e l) as [r1 e1].
  destruct (shr_fexp 53 1024 (round_nearest_even (shr_m r1) (loc_of_shr_record r1)) e1 loc_Exact) as [r2 e2].
  destruct (shr_m r2); auto. destruct (e2 <=? 1024 - 53); reflexivity.
Qed.

(** Dividing a number that is not negative by a positive one. *)
Lemma SFdiv_nonneg : forall a b, canon a -> canon b -> finite a -> finite b -> 0 <= sval a -> 0 < sval b ->
  SFdiv 53 1024 a b <> S754_nan /\ 0 <= sval (SFdiv 53 1024 a b).
Proof.
  intros [sa|sa| |sa ma ea] [sb|sb| |sb mb eb] CA CB FA FB A B; cbn [SFdiv finite] in *; try easy.
  destruct (finite_bounds ma ea) as [PA _]; try apply CA. destruct (finite_bounds mb eb) as [PB _]; try apply CB.
  assert (sa = false) by (destruct sa; [cbn [sval cond_Zopp] in A; lia|reflexivity]).
  assert (sb = false) by (destruct sb; [cbn [sval cond_Zopp] in B; lia|reflexivity]). subst.
  destruct (div_core ma ea mb eb) as (q & e & l & -> & Q & E). cbn [xorb].
  split; [now apply round_aux_not_nan|].
  pose proof (round_aux_sign false q e l) as S. pose proof (round_aux_canon false q e l Q E) as C.
  pose proof top_pos. destruct (binary_round_aux 53 1024 false q e l) as [s|s| |s m x]; cbn [sval]; try lia; subst s; cbn [cond_Zopp]; [lia|].
  destruct C as (C1 & C2 & _). pose proof (finite_bounds m x C1 C2). lia.
Qed.
