(** Facts about the float operations, without real numbers. *)
From Coq Require Import List NArith ZArith Bool SpecFloat Lia ZifyBool ZifyN ZifyNat.
From Verif Require Import Base FloatModel.
Local Open Scope Z_scope.

(** The floats binary64 can represent, in the form [f_decode] gives them. *)
Definition canon (x : spec_float) : Prop :=
  match x with
  | S754_finite _ m e =>
    Zpos m < 2 ^ 53 /\ -1074 <= e <= 971 /\ (Zpos m < 2 ^ 52 -> e = -1074)
  | _ => True
  end.

Lemma digits2_bounds : forall p, 2 ^ (Zpos (digits2_pos p) - 1) <= Zpos p < 2 ^ Zpos (digits2_pos p).
Proof.
  induction p as [p IH|p IH|]; cbn [digits2_pos]; [| |cbn; lia];
    rewrite Pos2Z.inj_succ; unfold Z.succ;
    replace (Zpos (digits2_pos p) + 1 - 1) with (Z.succ (Zpos (digits2_pos p) - 1)) by lia;
    replace (Zpos (digits2_pos p) + 1) with (Z.succ (Zpos (digits2_pos p))) by lia;
    rewrite !Z.pow_succ_r by lia; rewrite ?(Pos2Z.inj_xI p), ?(Pos2Z.inj_xO p); lia.
Qed.

Lemma digits_le : forall p k, 0 <= k -> Zpos p < 2 ^ k -> Zpos (digits2_pos p) <= k.
Proof.
  intros p k K L. destruct (Z.le_gt_cases (Zpos (digits2_pos p)) k); [assumption|].
  pose proof (digits2_bounds p) as B.
  assert (2 ^ k <= 2 ^ (Zpos (digits2_pos p) - 1)) by (apply Z.pow_le_mono_r; lia). lia.
Qed.

Lemma digits_ge : forall p k, 0 <= k -> 2 ^ k <= Zpos p -> k < Zpos (digits2_pos p).
Proof.
  intros p k K L. destruct (Z.lt_ge_cases k (Zpos (digits2_pos p))); [assumption|].
  pose proof (digits2_bounds p) as B.
  assert (2 ^ Zpos (digits2_pos p) <= 2 ^ k) by (apply Z.pow_le_mono_r; lia). lia.
Qed.

Lemma shr_1_m : forall r, 0 <= shr_m r -> shr_m (shr_1 r) = shr_m r / 2.
Proof.
  intros [m a b] H. cbn [shr_m] in *. destruct m as [|p|p]; [reflexivity| |lia].
  destruct p as [p|p|]; cbn [shr_1 shr_m].
  - rewrite (Pos2Z.inj_xI p). rewrite Z.mul_comm, Z.div_add_l by lia. cbn. lia.
  - rewrite (Pos2Z.inj_xO p). rewrite Z.mul_comm, Z.div_mul by lia. reflexivity.
  - reflexivity.
Qed.

Lemma iter_shr_m : forall p r, 0 <= shr_m r -> shr_m (iter_pos shr_1 p r) = shr_m r / 2 ^ Zpos p.
Proof.
  assert (H2 : forall p r, 0 <= shr_m r ->
    shr_m (iter_pos shr_1 p r) = shr_m r / 2 ^ Zpos p /\ 0 <= shr_m (iter_pos shr_1 p r)).
  { induction p as [p IH|p IH|]; intros r H; cbn [iter_pos].
    - assert (H1 : 0 <= shr_m (shr_1 r)) by (rewrite shr_1_m by exact H; apply Z.div_pos; lia).
      destruct (IH _ H1) as [E1 P1]. destruct (IH _ P1) as [E2 P2]. split; [|exact P2].
      rewrite E2, E1, shr_1_m by exact H.
      rewrite !Z.div_div by (try apply Z.pow_pos_nonneg; lia). f_equal.
      rewrite (Pos2Z.inj_xI p), Z.pow_add_r, Z.mul_comm by lia.
      replace (2 * Zpos p) with (Zpos p + Zpos p) by lia. rewrite Z.pow_add_r by lia. lia.
    - destruct (IH _ H) as [E1 P1]. destruct (IH _ P1) as [E2 P2]. split; [|exact P2].
      rewrite E2, E1. rewrite !Z.div_div by (try apply Z.pow_pos_nonneg; lia). f_equal.
      rewrite (Pos2Z.inj_xO p). replace (2 * Zpos p) with (Zpos p + Zpos p) by lia.
      rewrite Z.pow_add_r by lia. lia.
    - rewrite shr_1_m by exact H. split; [reflexivity|apply Z.div_pos; lia]. }
  intros p r H. apply (H2 p r H).
Qed.

Lemma shr_spec : forall r e n, 0 <= shr_m r -> 0 <= n ->
  shr_m (fst (shr r e n)) = shr_m r / 2 ^ n /\ snd (shr r e n) = e + n.
Proof.
  intros r e n H N. destruct n as [|p|p]; [| |lia]; cbn [shr fst snd].
  - split; [|lia]. cbn. now rewrite Z.div_1_r.
  - split; [apply iter_shr_m; exact H|reflexivity].
Qed.

Lemma shr_record_m : forall m l, shr_m (shr_record_of_loc m l) = m.
Proof. intros m [|[]]; reflexivity. Qed.

Lemma fexp_eq : forall e, fexp 53 1024 e = Z.max (e - 53) (-1074).
Proof. reflexivity. Qed.

Lemma round_near : forall m l, round_nearest_even m l = m \/ round_nearest_even m l = m + 1.
Proof. intros m [|[]]; cbn; auto. destruct (Z.even m); auto. Qed.

(** Shifting right until the number fits. *)
Lemma shr_fexp_spec : forall m e l, 0 <= m -> e <= fexp 53 1024 (Zdigits2 m + e) ->
  exists m' e', shr_m (fst (shr_fexp 53 1024 m e l)) = m' /\ snd (shr_fexp 53 1024 m e l) = e' /\
    0 <= m' < 2 ^ 53 /\ -1074 <= e' /\ (m' < 2 ^ 52 -> e' = -1074) /\
    e' = fexp 53 1024 (Zdigits2 m + e) /\ m' = m / 2 ^ (e' - e).
Proof.
  intros m e l M E. unfold shr_fexp.
  destruct (shr_spec (shr_record_of_loc m l) e (fexp 53 1024 (Zdigits2 m + e) - e)) as [S1 S2];
    [rewrite shr_record_m; exact M|lia|].
  rewrite S1, S2, shr_record_m. rewrite fexp_eq in *. clear S1 S2 l.
  set (d := Zdigits2 m) in *. set (n := Z.max (d + e - 53) (-1074) - e).
  assert (N : 0 <= n) by lia. exists (m / 2 ^ n), (e + n). split; [reflexivity|]. split; [reflexivity|].
  assert (P : 0 < 2 ^ n) by (apply Z.pow_pos_nonneg; lia).
  assert (DB : m < 2 ^ (53 + n) /\ (-1074 < e + n -> 2 ^ (52 + n) <= m)).
  { destruct m as [|p|p]; [| |lia].
    - cbn in d. subst d. split; [apply Z.pow_pos_nonneg; lia|]. unfold n. intros. exfalso. lia.
    - pose proof (digits2_bounds p) as [B1 B2]. change (Zpos (digits2_pos p)) with d in *.
      assert (0 < d) by (unfold d; cbn; lia). split.
      + eapply Z.lt_le_trans; [exact B2|]. apply Z.pow_le_mono_r; lia.
      + intros L. replace (52 + n) with (d - 1) by (unfold n in *; lia). exact B1. }
  destruct DB as [D1 D2]. repeat split; try lia.
  - apply Z.div_pos; lia.
  - apply Z.div_lt_upper_bound; [exact P|]. rewrite <- Z.pow_add_r by lia.
    now replace (n + 53) with (53 + n) by lia.
  - intros L. destruct (Z.eq_dec (e + n) (-1074)); [assumption|]. exfalso.
    assert (2 ^ 52 <= m / 2 ^ n); [|lia].
    apply Z.div_le_lower_bound; [exact P|]. rewrite <- Z.pow_add_r by lia.
    replace (n + 52) with (52 + n) by lia. apply D2. lia.
  - replace (e + n - e) with n by lia. reflexivity.
Qed.

Lemma Zdigits2_nonneg : forall m, 0 <= Zdigits2 m.
Proof. intros []; cbn; lia. Qed.

Lemma round_aux_canon : forall s m e l, 0 <= m -> e <= fexp 53 1024 (Zdigits2 m + e) ->
  canon (binary_round_aux 53 1024 s m e l).
Proof.
  intros s m e l M E. unfold binary_round_aux.
  destruct (shr_fexp_spec m e l M E) as (m1 & e1 & S1 & S2 & B1 & B2 & B3 & _).
  destruct (shr_fexp 53 1024 m e l) as [r1 e1']. cbn [fst snd] in *. subst e1'. rewrite S1.
  set (m2 := round_nearest_even m1 (loc_of_shr_record r1)).
  assert (R : m2 = m1 \/ m2 = m1 + 1) by apply round_near. clearbody m2. clear S1 r1.
  assert (M2 : 0 <= m2) by lia.
  assert (DD : Zdigits2 m2 <= 54 /\ (2 ^ 52 <= m2 -> 52 < Zdigits2 m2)).
  { destruct m2 as [|p|p]; [cbn; lia| |lia]. cbn [Zdigits2]. split.
    - apply digits_le; [lia|]. change (2 ^ 54) with (2 * 2 ^ 53). lia.
    - apply digits_ge. lia. }
  assert (E2 : e1 <= fexp 53 1024 (Zdigits2 m2 + e1)).
  { rewrite fexp_eq. destruct (Z.le_gt_cases (2 ^ 52) m2); lia. }
  destruct (shr_fexp_spec m2 e1 loc_Exact M2 E2) as (m3 & e3 & S3 & S4 & C1 & C2 & C3 & _).
  destruct (shr_fexp 53 1024 m2 e1 loc_Exact) as [r3 e3']. cbn [fst snd] in *. subst e3'. rewrite S3.
  destruct m3 as [|p|p]; try exact I. destruct (Z.leb_spec e3 (1024 - 53)); [|exact I].
  cbn [canon]. lia.
Qed.

Lemma shift_pos_mul : forall d p, Zpos (shift_pos d p) = Zpos p * 2 ^ Zpos d.
Proof. intros. rewrite shift_pos_correct. change (Zpower_pos 2 d) with (2 ^ Zpos d). lia. Qed.

Lemma digits_shift : forall d p, Zpos (digits2_pos (shift_pos d p)) = Zpos (digits2_pos p) + Zpos d.
Proof.
  intros d p. pose proof (digits2_bounds p) as [A B].
  assert (P : 0 < 2 ^ Zpos d) by (apply Z.pow_pos_nonneg; lia).
  assert (L : Zpos (digits2_pos (shift_pos d p)) <= Zpos (digits2_pos p) + Zpos d).
  { apply digits_le; [lia|]. rewrite shift_pos_mul, Z.pow_add_r by lia. nia. }
  assert (G : Zpos (digits2_pos p) - 1 + Zpos d < Zpos (digits2_pos (shift_pos d p))).
  { apply digits_ge; [lia|]. rewrite shift_pos_mul, Z.pow_add_r by lia. nia. }
  lia.
Qed.

Lemma shl_align_spec : forall m e e', exists m1 e1, shl_align m e e' = (m1, e1) /\
  e1 = Z.min e e' /\ Zpos m1 = Zpos m * 2 ^ (e - e1) /\
  Zpos (digits2_pos m1) + e1 = Zpos (digits2_pos m) + e.
Proof.
  intros m e e'. unfold shl_align. destruct (e' - e) as [|p|p] eqn:E.
  - exists m, e. repeat split; try lia. rewrite Z.sub_diag. cbn. lia.
  - exists m, e. repeat split; try lia. rewrite Z.sub_diag. cbn. lia.
  - exists (shift_pos p m), e'. repeat split; try lia.
    + rewrite shift_pos_mul. f_equal. f_equal. lia.
    + rewrite digits_shift. lia.
Qed.

Lemma binary_round_canon : forall s m e, canon (binary_round 53 1024 s m e).
Proof.
  intros s m e. unfold binary_round.
  destruct (shl_align_spec m e (fexp 53 1024 (Zpos (digits2_pos m) + e))) as (m1 & e1 & -> & E1 & _ & D).
  apply round_aux_canon; [lia|]. cbn [Zdigits2]. rewrite D. lia.
Qed.

Lemma normalize_canon : forall m e z, canon (binary_normalize 53 1024 m e z).
Proof. intros [|p|p] e z; cbn [binary_normalize]; [exact I| |]; apply binary_round_canon. Qed.

Lemma SFadd_canon : forall a b, canon a -> canon b -> canon (SFadd 53 1024 a b).
Proof.
  intros [sa|sa| |sa ma ea] [sb|sb| |sb mb eb] A B; cbn [SFadd]; try exact I; try assumption;
    try (destruct (Bool.eqb _ _); exact I).
  apply normalize_canon.
Qed.

Lemma digits_mul : forall a b, Zpos (digits2_pos a) + Zpos (digits2_pos b) - 1 <= Zpos (digits2_pos (a * b)).
Proof.
  intros a b. pose proof (digits2_bounds a) as [A _]. pose proof (digits2_bounds b) as [B _].
  set (da := Zpos (digits2_pos a)) in *. set (db := Zpos (digits2_pos b)) in *.
  assert (0 < da) by (unfold da; lia). assert (0 < db) by (unfold db; lia).
  assert (da - 1 + (db - 1) < Zpos (digits2_pos (a * b))); [|lia].
  apply digits_ge; [lia|]. rewrite Z.pow_add_r, Pos2Z.inj_mul by lia.
  assert (0 < 2 ^ (da - 1)) by (apply Z.pow_pos_nonneg; lia).
  assert (0 < 2 ^ (db - 1)) by (apply Z.pow_pos_nonneg; lia). nia.
Qed.

Lemma SFmul_canon : forall a b, canon a -> canon b -> canon (SFmul 53 1024 a b).
Proof.
  intros [sa|sa| |sa ma ea] [sb|sb| |sb mb eb] A B; cbn [SFmul]; try exact I.
  apply round_aux_canon; [lia|]. cbn [Zdigits2 canon] in *. rewrite fexp_eq.
  destruct A as (A1 & A2 & A3), B as (B1 & B2 & B3). pose proof (digits_mul ma mb) as D.
  destruct (Z.lt_ge_cases (Zpos ma) (2 ^ 52)) as [LA|LA], (Z.lt_ge_cases (Zpos mb) (2 ^ 52)) as [LB|LB].
  - specialize (A3 LA). specialize (B3 LB). lia.
  - apply digits_ge in LB; lia.
  - apply digits_ge in LA; lia.
  - apply digits_ge in LA, LB; lia.
Qed.

Lemma decode_canon : forall x, canon (f_decode x).
Proof.
  intros x. unfold f_decode.
  assert (X : (f_exp x < 2 ^ 11)%N) by (unfold f_exp; apply N.mod_lt; discriminate).
  assert (M : (f_mant x < 2 ^ 52)%N) by (unfold f_mant; apply N.mod_lt; discriminate).
  set (ex := f_exp x) in *. set (mx := f_mant x) in *. clearbody ex mx.
  change (2 ^ 11)%N with 2048%N in X. change (2 ^ 52)%N with 4503599627370496%N in *.
  destruct (N.eqb_spec ex 2047); [destruct (mx =? 0)%N; exact I|].
  destruct (N.eqb_spec ex 0).
  - destruct mx as [|m]; [exact I|]. cbn [canon]. change (2 ^ 53) with 9007199254740992. lia.
  - destruct (mx + 4503599627370496)%N as [|m] eqn:E; [lia|]. cbn [canon].
    change (2 ^ 53) with 9007199254740992. change (2 ^ 52) with 4503599627370496. lia.
Qed.

Lemma encode_bound : forall x, canon x -> (f_encode x < 2 ^ 64)%N.
Proof.
  intros [s|s| |s m e] C; cbn [f_encode]; try (destruct s; reflexivity); try reflexivity.
  destruct C as (A & B & C).
  assert (S : (sign_bit s <= 2 ^ 63)%N) by (destruct s; discriminate).
  change (2 ^ 63)%N with 9223372036854775808%N in S.
  change (2 ^ 64)%N with 18446744073709551616%N. change (2 ^ 52)%N with 4503599627370496%N.
  change (2 ^ 53) with 9007199254740992 in A. change (2 ^ 52) with 4503599627370496 in C.
  destruct (N.ltb_spec (Npos m) 4503599627370496); lia.
Qed.

(** The fields of a pattern put together from fields. *)
Lemma fields : forall s ex mx, (ex < 2048)%N -> (mx < 2 ^ 52)%N ->
  f_sign (sign_bit s + ex * 2 ^ 52 + mx)%N = s /\
  f_exp (sign_bit s + ex * 2 ^ 52 + mx)%N = ex /\
  f_mant (sign_bit s + ex * 2 ^ 52 + mx)%N = mx.
Proof.
  intros s ex mx E M. set (b := if s then 1%N else 0%N).
  assert (S : sign_bit s = (b * 2048 * 2 ^ 52)%N) by (destruct s; reflexivity).
  assert (Q : (sign_bit s + ex * 2 ^ 52 + mx = (b * 2048 + ex) * 2 ^ 52 + mx)%N) by (rewrite S; lia).
  assert (D : ((sign_bit s + ex * 2 ^ 52 + mx) / 2 ^ 52 = b * 2048 + ex)%N).
  { rewrite Q, N.div_add_l by discriminate. rewrite N.div_small by exact M. lia. }
  repeat split.
  - unfold f_sign. rewrite N.testbit_eqb. change (2 ^ 63)%N with (2 ^ 52 * 2048)%N.
    rewrite <- N.div_div by discriminate. rewrite D.
    replace ((b * 2048 + ex) / 2048)%N with b.
    + destruct s; reflexivity.
    + symmetry. rewrite N.div_add_l by discriminate. rewrite N.div_small by exact E. lia.
  - unfold f_exp. rewrite D. change (2 ^ 11)%N with 2048%N.
    rewrite N.add_comm, N.mod_add by discriminate. apply N.mod_small. exact E.
  - unfold f_mant. rewrite Q, N.add_comm, N.mod_add by discriminate. apply N.mod_small. exact M.
Qed.

Lemma decode_encode : forall x, canon x -> f_decode (f_encode x) = x.
Proof.
  intros [s|s| |s m e] C; try (destruct s; reflexivity); try reflexivity.
  cbn [f_encode]. destruct C as (A & B & C).
  change (2 ^ 53) with 9007199254740992 in A. change (2 ^ 52) with 4503599627370496 in C.
  destruct (N.ltb_spec (Npos m) (2 ^ 52)) as [L|L]; change (2 ^ 52)%N with 4503599627370496%N in L.
  - replace (sign_bit s + Npos m)%N with (sign_bit s + 0 * 2 ^ 52 + Npos m)%N by lia.
    destruct (fields s 0 (Npos m)) as (F1 & F2 & F3); [reflexivity|exact L|].
    unfold f_decode. rewrite F1, F2, F3. cbn [N.eqb]. rewrite C by lia. reflexivity.
  - destruct (fields s (Z.to_N (e + 1075)) (Npos m - 2 ^ 52)) as (F1 & F2 & F3);
      [lia|change (2 ^ 52)%N with 4503599627370496%N; lia|].
    unfold f_decode. rewrite F1, F2, F3.
    destruct (N.eqb_spec (Z.to_N (e + 1075)) 2047); [lia|].
    destruct (N.eqb_spec (Z.to_N (e + 1075)) 0); [lia|].
    replace (Npos m - 2 ^ 52 + 2 ^ 52)%N with (Npos m) by (change (2 ^ 52)%N with 4503599627370496%N; lia).
    f_equal. lia.
Qed.

Lemma f_of_Z_canon : forall z, exists x, canon x /\ f_of_Z z = f_encode x.
Proof.
  intros [|p|p]; unfold f_of_Z; eexists; (split; [|reflexivity]); try exact I; apply normalize_canon.
Qed.

Lemma f_of_Z_bound : forall z, (f_of_Z z < 2 ^ 64)%N.
Proof. intros z. destruct (f_of_Z_canon z) as (x & C & ->). now apply encode_bound. Qed.

Lemma f_add_bound : forall a b, (f_add a b < 2 ^ 64)%N.
Proof. intros. apply encode_bound, SFadd_canon; apply decode_canon. Qed.

Lemma f_mul_bound : forall a b, (f_mul a b < 2 ^ 64)%N.
Proof. intros. apply encode_bound, SFmul_canon; apply decode_canon. Qed.

Lemma decode_add : forall a b, f_decode (f_add a b) = SFadd 53 1024 (f_decode a) (f_decode b).
Proof. intros. apply decode_encode, SFadd_canon; apply decode_canon. Qed.

Lemma decode_mul : forall a b, f_decode (f_mul a b) = SFmul 53 1024 (f_decode a) (f_decode b).
Proof. intros. apply decode_encode, SFmul_canon; apply decode_canon. Qed.

(** Patterns other than NaN are determined by what they stand for. *)
Lemma encode_decode : forall x, (x < 2 ^ 64)%N -> f_decode x <> S754_nan -> f_encode (f_decode x) = x.
Proof.
  intros x X NN.
  assert (SP : (x = sign_bit (f_sign x) + f_exp x * 2 ^ 52 + f_mant x)%N).
  { unfold f_sign, f_exp, f_mant. rewrite N.testbit_eqb.
    assert (D1 : (x = 2 ^ 52 * (x / 2 ^ 52) + x mod 2 ^ 52)%N) by (apply N.div_mod; discriminate).
    assert (D2 : (x / 2 ^ 52 = 2 ^ 11 * (x / 2 ^ 52 / 2 ^ 11) + (x / 2 ^ 52) mod 2 ^ 11)%N) by (apply N.div_mod; discriminate).
    rewrite N.div_div in D2 by discriminate. change (2 ^ 52 * 2 ^ 11)%N with (2 ^ 63)%N in D2.
    assert (Q : (x / 2 ^ 63 < 2)%N) by (apply N.div_lt_upper_bound; [discriminate|]; exact X).
    assert (S : sign_bit ((x / 2 ^ 63) mod 2 =? 1)%N = (x / 2 ^ 63 * 2 ^ 63)%N).
    { assert (C : (x / 2 ^ 63 = 0 \/ x / 2 ^ 63 = 1)%N) by lia. destruct C as [-> | ->]; reflexivity. }
    rewrite S. change (2 ^ 63)%N with (2 ^ 11 * 2 ^ 52)%N in *. lia. }
  unfold f_decode in *.
  assert (XB : (f_exp x < 2 ^ 11)%N) by (unfold f_exp; apply N.mod_lt; discriminate).
  assert (M : (f_mant x < 2 ^ 52)%N) by (unfold f_mant; apply N.mod_lt; discriminate).
  set (ex := f_exp x) in *. set (mx := f_mant x) in *. set (s := f_sign x) in *. clearbody ex mx s.
  destruct (N.eqb_spec ex 2047) as [E|E].
  - destruct (N.eqb_spec mx 0) as [Z|Z]; [|congruence]. cbn [f_encode]. subst. lia.
  - destruct (N.eqb_spec ex 0) as [E0|E0].
    + destruct mx as [|m] eqn:EM; cbn [f_encode]; subst ex; [lia|].
      destruct (N.ltb_spec (Npos m) (2 ^ 52)); lia.
    + destruct (mx + 2 ^ 52)%N as [|m] eqn:EM; [lia|]. cbn [f_encode].
      destruct (N.ltb_spec (Npos m) (2 ^ 52)); [lia|].
      replace (Z.to_N (Z.of_N ex - 1075 + 1075)) with ex by lia. lia.
Qed.

(** ** Integers of at most 53 bits are represented exactly *)

Lemma round_exact : forall s m e, (Zpos m < 2 ^ 53) -> (-1074 <= e <= 971) ->
  (Zpos m < 2 ^ 52 -> e = -1074) -> binary_round_aux 53 1024 s (Zpos m) e loc_Exact = S754_finite s m e.
Proof.
  intros s m e M E C. unfold binary_round_aux.
  assert (D : Zpos (digits2_pos m) <= 53) by (apply digits_le; lia).
  assert (F : fexp 53 1024 (Zdigits2 (Zpos m) + e) - e = 0).
  { rewrite fexp_eq. cbn [Zdigits2]. destruct (Z.lt_ge_cases (Zpos m) (2 ^ 52)) as [L|L].
    - rewrite C by exact L. lia.
    - apply digits_ge in L; lia. }
  unfold shr_fexp at 1. rewrite F. cbn [shr shr_record_of_loc shr_m loc_of_shr_record round_nearest_even].
  unfold shr_fexp. rewrite F. cbn [shr shr_record_of_loc shr_m].
  destruct (Z.leb_spec e (1024 - 53)); [reflexivity|lia].
Qed.

Lemma round_small : forall s p, Zpos p < 2 ^ 53 ->
  exists m e, binary_round 53 1024 s p 0 = S754_finite s m e /\
    canon (S754_finite s m e) /\ e <= 0 /\ Zpos m = Zpos p * 2 ^ (- e).
Proof.
  intros s p P. assert (D : Zpos (digits2_pos p) <= 53) by (apply digits_le; lia).
  unfold binary_round. rewrite fexp_eq.
  destruct (shl_align_spec p 0 (Z.max (Zpos (digits2_pos p) + 0 - 53) (-1074))) as (m & e & -> & E & M & DM).
  assert (EE : e = Zpos (digits2_pos p) - 53) by lia.
  pose proof (digits2_bounds m) as B. replace (Zpos (digits2_pos m)) with 53 in B by lia.
  change (53 - 1) with 52 in B.
  exists m, e. rewrite round_exact by lia. split; [reflexivity|]. split; [cbn [canon]; lia|].
  split; [lia|]. rewrite M. f_equal. 
Qed.
