(** Shard selection. *)
From Coq Require Import List NArith ZArith Bool Lia ZifyBool ZifyN ZifyNat.
From Verif Require Import Base BaseFacts LabelModel VecModel.
Import ListNotations.
Local Open Scope N_scope.

Lemma pow2_pos : forall k, 0 < 2 ^ k.
Proof. intros. apply N.neq_0_lt_0. now apply N.pow_nonzero. Qed.

Lemma trailing_zeros_pow2 : forall w k, trailing_zeros w (2 ^ k) = k.
Proof.
  intros w k. induction k as [|k IH] using N.peano_ind; [easy|].
  rewrite N.pow_succ_r'. pose proof (pow2_pos k). destruct (2 ^ k) as [|p] eqn:E; [lia|].
  cbn [trailing_zeros] in *. cbn [N.mul Pos.mul]. cbn [trailing_zeros pos_trailing_zeros].
  now rewrite IH.
Qed.

(** The number of shards is 2^k with 4p <= 2^k < 8p. *)
Lemma default_shards : forall bd w p, 1 <= p -> p * 4 <= 2 ^ (w - 1) -> 0 < w ->
  exists k, default_shard_amount bd w p = Done (2 ^ k) /\ 2 <= k /\ k < w /\
            p * 4 <= 2 ^ k /\ 2 ^ k < 8 * p.
Proof.
  intros bd w p Hp Hb Hw. set (k := N.log2_up (p * 4)).
  assert (K2 : 2 <= k).
  { unfold k. change 2 with (N.log2_up 4). apply N.log2_up_le_mono. lia. }
  assert (Kw : k <= w - 1).
  { unfold k. rewrite <- (N.log2_up_pow2 (w - 1)) by lia. now apply N.log2_up_le_mono. }
  assert (LT : p * 4 < 2 ^ w).
  { replace w with (N.succ (w - 1)) by lia. rewrite N.pow_succ_r'. pose proof (pow2_pos (w - 1)). lia. }
  exists k. unfold default_shard_amount, w_mul, next_power_of_two. split.
  - assert (M : (match bd with Debug => if p * 4 <? 2 ^ w then Done (p * 4) else Panic
                 | Release => Done ((p * 4) mod 2 ^ w) end) = Done (p * 4)).
    { destruct bd; [destruct (N.ltb_spec (p * 4) (2 ^ w)); [easy|lia]|now rewrite N.mod_small]. }
    rewrite M. cbn [obind]. fold k.
    assert (2 ^ k < 2 ^ w) by (apply N.pow_lt_mono_r; lia).
    destruct (N.ltb_spec (2 ^ k) (2 ^ w)); [easy|lia].
  - split; [easy|]. split; [lia|].
    destruct (N.log2_up_spec (p * 4)) as [A B]; [lia|]. fold k in A, B. split; [easy|].
    replace k with (N.succ (N.pred k)) by lia. rewrite N.pow_succ_r'. lia.
Qed.

Lemma shard_index_pow2 : forall bd w k hash, 0 < k -> k < w ->
  exists i, shard_index bd w hash (shard_shift w (2 ^ k)) = Done i /\ i < 2 ^ k.
Proof.
  intros bd w k hash Hk Hw. unfold shard_index, shard_shift, w_shr.
  rewrite trailing_zeros_pow2. destruct (N.ltb_spec (w - k) w); [|lia].
  eexists. split; [reflexivity|]. rewrite N.shiftr_div_pow2.
  apply N.div_lt_upper_bound; [pose proof (pow2_pos (w - k)); lia|].
  rewrite <- N.pow_add_r. replace (w - k + k) with w by lia.
  apply N.mod_lt. now apply N.pow_nonzero.
Qed.

Lemma shard_index_onto : forall bd w k i, 0 < k -> k + 7 <= w -> i < 2 ^ k ->
  exists hash, hash < 2 ^ w /\ shard_index bd w hash (shard_shift w (2 ^ k)) = Done i.
Proof.
  intros bd w k i Hk Hw Hi. exists (i * 2 ^ (w - k - 7)).
  assert (B : i * 2 ^ (w - k - 7) * 2 ^ 7 = i * 2 ^ (w - k)).
  { rewrite <- N.mul_assoc, <- N.pow_add_r. do 2 f_equal. lia. }
  assert (C : i * 2 ^ (w - k) < 2 ^ w).
  { replace w with (k + (w - k)) at 2 by lia. rewrite N.pow_add_r.
    apply N.mul_lt_mono_pos_r; [apply pow2_pos|easy]. }
  assert (D : i * 2 ^ (w - k - 7) < 2 ^ w).
  { eapply N.le_lt_trans; [|exact C]. apply N.mul_le_mono_l. apply N.pow_le_mono_r; lia. }
  split; [easy|]. unfold shard_index, shard_shift, w_shr. rewrite trailing_zeros_pow2.
  destruct (N.ltb_spec (w - k) w); [|lia].
  rewrite (N.mod_small _ _ D), N.shiftl_mul_pow2, B, (N.mod_small _ _ C).
  rewrite N.shiftr_div_pow2, N.div_mul by (apply N.pow_nonzero; lia). easy.
Qed.

Lemma shard_in_bounds : forall bd w p, (w = 32 \/ w = 64) -> 1 <= p -> p * 4 <= 2 ^ (w - 1) ->
  exists n, default_shard_amount bd w p = Done n /\ p * 4 <= n /\
    (forall hash, exists i, shard_index bd w hash (shard_shift w n) = Done i /\ i < n) /\
    (n <= 2 ^ (w - 7) -> forall i, i < n ->
       exists hash, hash < 2 ^ w /\ shard_index bd w hash (shard_shift w n) = Done i).
Proof.
  intros bd w p Hw Hp Hb.
  destruct (default_shards bd w p Hp Hb) as (k & E & K2 & Kw & K4 & K8); [lia|].
  exists (2 ^ k). split; [easy|]. split; [easy|]. split.
  - intros hash. apply shard_index_pow2; lia.
  - intros Hn i Hi. apply shard_index_onto; try lia.
    apply N.pow_le_mono_r_iff in Hn; lia.
Qed.
