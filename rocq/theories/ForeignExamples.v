(** Ids of other vecs: examples. *)
From Coq Require Import List NArith ZArith Bool Lia Permutation.
From Verif Require Import Base BaseFacts LabelModel LabelSpec LabelProofs GroupProofs LawProofs
  VecModel VecSpec ShardProofs VecProofs VecTheorems ForeignModel ForeignSpec.
Import ListNotations.
Local Open Scope N_scope.

Ltac vm_refl := match goal with |- ?a = ?b => exact (@eq_refl _ b <: a = b) end.

Notation DL := (derived_lgset Debug).

(** A table that looks only at entries stored under the same hash, and a hash
    that spreads. *)
Definition ex_spread : world DL N := {|
  w_bd := Debug;
  w_default := 0;
  w_hash := (fun u : unique => ((fst u + 1) * 11400714819323198485 + fold_left N.add (snd u) 7) mod 2 ^ 64)
    : lg_unique DL -> N;
  w_visits := N.eqb;
  w_grows := fun t => nlen t =? 1;
  w_iter := fun t => rev t;
  w_geqb := group_val_eqb : lg_group DL -> lg_group DL -> bool |}.

Lemma ex_spread_ok : world_ok ex_spread.
Proof.
  constructor.
  - intros h. apply N.eqb_refl.
  - intros t. symmetry. apply Permutation_rev.
  - apply (wo_geqb _ ex_world_ok).
Qed.

(** The id that a vec gives a group after the lookups [gs]. *)
Definition ex_id (v : metric_vec DL N) (gs : list group_val) (g : group_val) : label_id DL :=
  let c := fst (ex_end (exec ex_spread (start v) (map ex_lookup (gs ++ [g])))) in
  last (cl_ids c) (Build_label_id DL (0, []) 0).

Definition ex_pair (a b : N) : group_val := [([1], [a]); ([3], [b])].

(** Three vecs of one type of label set: dense and sparse over the zones a, b;
    dense over the zones b, a. *)
Definition ex_swapped_set : group_set :=
  [ {| f_name := [1]; f_rename := None; f_set := SStatic ex_enum |};
    {| f_name := [3]; f_rename := None; f_set := SFixedSet [[98]; [97]] |} ].
Definition ex_swapped_vec := ex_done (vec_new Debug DL N 3 ex_swapped_set).

(** The second tenant of another vec. *)
Definition ex_other_tenant : label_id DL := ex_id ex_vec [ex_group 80 65 98] (ex_group 80 66 98).

Definition ex_stranger : list (any_op DL N) :=
  [ Own (ex_lookup (ex_group 80 120 98)); Own (OpAccess 0 (ex_add 3)); AnyAccess ex_other_tenant (ex_add 5);
    Own (OpAccess 0 (ex_add 4)) ].

Definition ex_outs (r : outcome (client DL N * list (vec_out DL N))) : option (list (vec_out DL N)) :=
  match r with Done p => Some (snd p) | Panic => None end.

Lemma ex_built : forall (v : metric_vec DL N) ls,
  vec_new Debug DL N 3 ls = Done v \/ vec_new_sparse Debug DL N 3 ls = Done v -> constructed ex_spread 3 ls v.
Proof.
  intros v ls H. split; [vm_compute; discriminate|]. split; [vm_compute; discriminate|].
  destruct H; [now left|right; now right].
Qed.

(** The id of another vec is taken for no group of this one, and the accesses
    through the own id are those of the program without it.  A collection
    panics; once the own interner has got as far, the amount is reported under
    labels that were never given. *)
Lemma ex_stranger_runs : constructed ex_spread 3 ex_set ex_vec /\ sound_set ex_set /\
  @typed_ops DL N well_shaped ex_set (owns ex_stranger ++ [ex_lookup (ex_group 80 121 98)]) /\
  storage_of ex_vec = KSparse /\
  strangers ex_stranger = [ex_other_tenant] /\
  ex_outs (exec_any ex_spread (start ex_vec) ex_stranger) =
    Some [OutLookup (Some []); OutValue 0; OutValue 0; OutValue 3] /\
  ex_outs (exec ex_spread (start ex_vec) (owns ex_stranger)) =
    Some [OutLookup (Some []); OutValue 0; OutValue 3] /\
  exec_any ex_spread (start ex_vec) (ex_stranger ++ [Own OpCollect]) = Panic /\
  ex_outs (exec_any ex_spread (start ex_vec) (ex_stranger ++ [Own (ex_lookup (ex_group 80 121 98)); Own OpCollect])) =
    Some [OutLookup (Some []); OutValue 0; OutValue 0; OutValue 3; OutLookup (Some [false]);
          ex_samples [(ex_group 80 121 98, 5); (ex_group 80 120 98, 7)]].
Proof.
  split; [apply ex_built; left; vm_refl|].
  split; [split; [apply LabelProofs.wf_group_check; reflexivity|split; reflexivity]|].
  split.
  { intros g H. cbn [owns ex_stranger flat_map app] in H. unfold ex_lookup in H.
    repeat (destruct H as [H|H]; [first [discriminate H|injection H as <-; reflexivity]|]). destruct H. }
  split; [vm_refl|]. split; [vm_refl|]. split; [vm_refl|]. split; [vm_refl|]. split; vm_refl.
Qed.

(** The id that a dense vec gives a group, used on a sparse vec of the same
    label set: the group is reported twice. *)
Definition ex_doubled : list (any_op DL N) :=
  [ Own (ex_lookup (ex_pair 80 98)); Own (OpAccess 0 (ex_add 3));
    AnyAccess (ex_id ex_dense_vec [] (ex_pair 80 98)) (ex_add 4); Own OpCollect ].

Lemma ex_doubled_runs : constructed ex_spread 3 ex_fixed_set ex_sparse_vec /\
  ex_outs (exec_any ex_spread (start ex_sparse_vec) ex_doubled) =
    Some [OutLookup (Some []); OutValue 0; OutValue 0; ex_samples [(ex_pair 80 98, 4); (ex_pair 80 98, 3)]].
Proof. split; [apply ex_built; right; vm_refl|vm_refl]. Qed.

(** The other way round it panics. *)
Lemma ex_beyond_runs : exists c os, constructed ex_spread 3 ex_fixed_set ex_dense_vec /\
  storage_of ex_dense_vec = KDense /\
  exec_any ex_spread (start ex_dense_vec) [Own (ex_lookup (ex_pair 80 98))] = Done (c, os) /\
  cannot KDense (mv_set (cl_vec c)) [] (AnyAccess (ex_id ex_sparse_vec [] (ex_pair 80 98)) (ex_add 4)) /\
  exec_any ex_spread (start ex_dense_vec)
    [Own (ex_lookup (ex_pair 80 98)); AnyAccess (ex_id ex_sparse_vec [] (ex_pair 80 98)) (ex_add 4)] = Panic.
Proof.
  exists (fst (ex_end (exec ex_spread (start ex_dense_vec) [ex_lookup (ex_pair 80 98)]))),
         (snd (ex_end (exec ex_spread (start ex_dense_vec) [ex_lookup (ex_pair 80 98)]))).
  split; [apply ex_built; left; vm_refl|]. split; [vm_refl|]. split; [vm_refl|].
  split; [|vm_refl]. exists 6. split; [vm_refl|].
  assert (X : (6 <=? li_hash (ex_id ex_sparse_vec [] (ex_pair 80 98))) = true) by vm_refl.
  now apply N.leb_le in X.
Qed.

(** Between dense vecs whose sets list the same zones in another order, amounts
    land on another group. *)
Lemma ex_swapped_runs : constructed ex_spread 3 ex_fixed_set ex_dense_vec /\
  constructed ex_spread 3 ex_swapped_set ex_swapped_vec /\
  ex_outs (exec_any ex_spread (start ex_dense_vec)
    [AnyAccess (ex_id ex_swapped_vec [] (ex_pair 80 98)) (ex_add 4); Own OpCollect]) =
    Some [OutValue 0; ex_samples [(ex_pair 80 97, 4)]].
Proof. split; [apply ex_built; left; vm_refl|]. split; [apply ex_built; left; vm_refl|vm_refl]. Qed.
