(** The index of derived groups through the interface of label sets; shards of a
    new map. *)
From Coq Require Import List NArith Bool Lia ZifyBool ZifyN ZifyNat.
From Verif Require Import Base BaseFacts LabelModel LabelSpec LabelProofs GroupProofs VecModel ShardProofs VecProofs.
Import ListNotations.
Local Open Scope N_scope.

Theorem dense_index : forall bd s c, wf_group_set s -> lg_cardinality (derived_lgset bd) s = Some c ->
  (forall g, member s g -> exists u i, lg_encode (derived_lgset bd) s g = Done (s, Some u) /\
     lg_encode_dense (derived_lgset bd) s u = Done (Some i) /\ i < c /\ lg_decode_dense (derived_lgset bd) s i = Done g) /\
  (forall i, i < c -> exists g u, member s g /\ lg_decode_dense (derived_lgset bd) s i = Done g /\
     lg_encode (derived_lgset bd) s g = Done (s, Some u) /\ lg_encode_dense (derived_lgset bd) s u = Done (Some i)).
Proof.
  intros bd s c W C. cbn [derived_lgset lg_cardinality lg_encode lg_encode_dense lg_decode_dense] in *.
  destruct (group_bijection bd s c W C) as (_ & A & B & _).
  assert (D : dynamics s = []).
  { unfold group_cardinality in C. destruct (dynamics s); [reflexivity|discriminate]. }
  unfold group_encode_dense, group_decode_dense. rewrite D. split.
  - intros g M. destruct (A g M) as (i & E & L & Q). exists (i, []), i. auto.
  - intros i L. destruct (B i L) as (g & M & Q & E). exists g, (i, []). auto.
Qed.

Theorem shards_exist : forall bd (L : lgset) M p, 1 <= p -> p * 4 <= 2 ^ 63 -> exists s : sharded L M,
  sharded_new bd L M p = Done s /\
  forall hash, exists i, shard_index bd 64 hash (sm_shift s) = Done i /\ get_shard L M s i = Done [].
Proof.
  intros bd L M p P1 P2. unfold sharded_new. destruct (shard_in_bounds bd 64 p (or_intror eq_refl) P1 P2) as (n & E & _ & H & _).
  rewrite E. cbn [obind]. eexists. split; [reflexivity|]. intros hash. destruct (H hash) as (i & Ei & Li).
  exists i. split; [exact Ei|]. unfold get_shard. cbn [sm_shards].
  unfold table. rewrite nnth_repeat. replace (i <? _) with true by lia. reflexivity.
Qed.
