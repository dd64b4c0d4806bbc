(** Property C72: label ids issued by other vecs. *)
From Coq Require Import List NArith ZArith Bool Permutation.
From Verif Require Import Base BaseFacts LabelModel LabelSpec LabelProofs GroupProofs LawProofs
  VecModel VecSpec ShardProofs VecProofs VecTheorems ForeignModel ForeignSpec ForeignProofs ForeignExamples.
Import ListNotations.
Local Open Scope N_scope.

(** C72: whatever ids of other vecs a program uses, the groups that none of
    these ids is taken for are reported as if those calls had not been made. *)
Theorem C72_undisturbed : forall L M ok wt valid, lawful L ok wt valid ->
  forall W : world L M, world_ok W ->
  forall p ls v, constructed W p ls v -> ok ls ->
  forall ops op, typed_ops wt ls (owns ops ++ [op]) ->
  forall c outs o, exec_any W (start v) (ops ++ [Own op]) = Done (c, outs ++ [o]) ->
  exists c' outs' o', exec W (start v) (owns ops ++ [op]) = Done (c', outs' ++ [o']) /\
    length outs' = length (owns ops) /\
    mv_set (cl_vec c) = mv_set (cl_vec c') /\ cl_ids c = cl_ids c' /\
    agree (disturbed (storage_of v) (mv_set (cl_vec c)) (strangers ops)) (issued (owns ops) outs') op o o'.
Proof. exact (fun L M ok wt valid LAW W WOK => others_undisturbed LAW W WOK). Qed.
Print Assumptions C72_undisturbed.

(** The calls that can panic. *)
Theorem C72_panics : forall L M ok wt valid, lawful L ok wt valid ->
  forall W : world L M, world_ok W ->
  forall p ls v, constructed W p ls v -> ok ls ->
  forall ops, typed_ops wt ls (owns ops) -> exec_any W (start v) ops = Panic ->
  exists pre op post c os, ops = pre ++ op :: post /\ exec_any W (start v) pre = Done (c, os) /\
    cannot (storage_of v) (mv_set (cl_vec c)) (strangers pre) op.
Proof. exact (fun L M ok wt valid LAW W WOK => others_panics LAW W WOK). Qed.
Print Assumptions C72_panics.

(** On a dense vec they always do. *)
Theorem C72_dense_beyond : forall L M ok wt valid, lawful L ok wt valid ->
  forall W : world L M, world_ok W ->
  forall p ls v, constructed W p ls v -> ok ls -> storage_of v = KDense ->
  forall ops c os, typed_ops wt ls (owns ops) -> exec_any W (start v) ops = Done (c, os) ->
  forall op, cannot KDense (mv_set (cl_vec c)) (strangers ops) op ->
  exec_any W (start v) (ops ++ [op]) = Panic.
Proof. exact (fun L M ok wt valid LAW W WOK => dense_beyond LAW W WOK). Qed.
Print Assumptions C72_dense_beyond.

(** An id that says what an own id says, acts like it: for a sparse vec one with the same
    parts, for a dense vec one that is taken for the same group. *)
Theorem C72_like_own : forall L M ok wt valid, lawful L ok wt valid ->
  forall (W : world L M) c h id id', ok (mv_set (cl_vec c)) ->
  nth_error (cl_ids c) h = Some id' -> says_the_same (storage_of (cl_vec c)) (mv_set (cl_vec c)) id id' ->
  forall f rest, exec_any W c (AnyAccess id f :: rest) = exec_any W c (Own (OpAccess h f) :: rest) /\
    exec_any W c (AnyAccessMut id f :: rest) = exec_any W c (Own (OpAccessMut h f) :: rest) /\
    exec_any W c (AnyRemove id :: rest) = exec_any W c (Own (OpRemove h) :: rest).
Proof. exact (fun L M ok wt valid LAW => like_own LAW). Qed.
Print Assumptions C72_like_own.

Example C72_world_ok : world_ok ex_spread.
Proof. exact ex_spread_ok. Qed.

Example C72_case : constructed ex_spread 3 ex_set ex_vec /\ sound_set ex_set /\
  @typed_ops DL N well_shaped ex_set (owns ex_stranger ++ [ex_lookup (ex_group 80 121 98)]) /\
  storage_of ex_vec = KSparse /\
  strangers ex_stranger = [ex_other_tenant] /\
  ex_outs (exec_any ex_spread (start ex_vec) ex_stranger) =
    Some [OutLookup (Some []); OutValue 0; OutValue 0; OutValue 3] /\
  ex_outs (exec ex_spread (start ex_vec) (owns ex_stranger)) =
    Some [OutLookup (Some []); OutValue 0; OutValue 3] /\
  exec_any ex_spread (start ex_vec) (ex_stranger ++ [Own OpCollect]) = Panic /\
  ex_outs (exec_any ex_spread (start ex_vec) (ex_stranger ++ [Own (ex_lookup (ex_group 80 121 98)); Own OpCollect])) =
    Some [OutLookup (Some []); OutValue 0; OutValue 0; OutValue 3; OutLookup (Some [false]);
          ex_samples [(ex_group 80 121 98, 5); (ex_group 80 120 98, 7)]].
Proof. exact ex_stranger_runs. Qed.

(** What happens to the groups that are disturbed: a group reported twice, a
    panic, an amount under labels that were not given. *)
Example C72_doubled_case : constructed ex_spread 3 ex_fixed_set ex_sparse_vec /\
  ex_outs (exec_any ex_spread (start ex_sparse_vec)
    [ Own (ex_lookup (ex_pair 80 98)); Own (OpAccess 0 (ex_add 3));
      AnyAccess (ex_id ex_dense_vec [] (ex_pair 80 98)) (ex_add 4); Own OpCollect ]) =
    Some [OutLookup (Some []); OutValue 0; OutValue 0; ex_samples [(ex_pair 80 98, 4); (ex_pair 80 98, 3)]].
Proof. exact ex_doubled_runs. Qed.

Example C72_beyond_case : exists c os, constructed ex_spread 3 ex_fixed_set ex_dense_vec /\
  storage_of ex_dense_vec = KDense /\
  exec_any ex_spread (start ex_dense_vec) [Own (ex_lookup (ex_pair 80 98))] = Done (c, os) /\
  cannot KDense (mv_set (cl_vec c)) [] (AnyAccess (ex_id ex_sparse_vec [] (ex_pair 80 98)) (ex_add 4)) /\
  exec_any ex_spread (start ex_dense_vec)
    [Own (ex_lookup (ex_pair 80 98)); AnyAccess (ex_id ex_sparse_vec [] (ex_pair 80 98)) (ex_add 4)] = Panic.
Proof. exact ex_beyond_runs. Qed.

Example C72_other_group_case : constructed ex_spread 3 ex_fixed_set ex_dense_vec /\
  constructed ex_spread 3 ex_swapped_set ex_swapped_vec /\
  ex_outs (exec_any ex_spread (start ex_dense_vec)
    [AnyAccess (ex_id ex_swapped_vec [] (ex_pair 80 98)) (ex_add 4); Own OpCollect]) =
    Some [OutValue 0; ex_samples [(ex_pair 80 97, 4)]].
Proof. exact ex_swapped_runs. Qed.

(** The id of zone a of the one is that of zone b of the other. *)
Example C72_like_own_case :
  let c := fst (ex_end (exec ex_spread (start ex_dense_vec) [ex_lookup (ex_pair 80 98)])) in
  let id := ex_id ex_swapped_vec [] (ex_pair 80 97) in
  let id' := ex_id ex_dense_vec [] (ex_pair 80 98) in
  nth_error (cl_ids c) 0 = Some id' /\ says_the_same (storage_of (cl_vec c)) (mv_set (cl_vec c)) id id' /\ sound_set (mv_set (cl_vec c)) /\
  ex_outs (exec_any ex_spread c [AnyAccess id (ex_add 4); Own (OpAccess 0 (ex_add 1)); Own OpCollect]) =
    Some [OutValue 0; OutValue 4; ex_samples [(ex_pair 80 98, 5)]].
Proof.
  intros c id id'. assert (K : storage_of (cl_vec c) = KDense) by vm_refl. assert (S : mv_set (cl_vec c) = ex_fixed_set) by vm_refl.
  rewrite K, S. split; [vm_refl|]. split; [|split; [|vm_refl]].
  - exists 6, (ex_pair 80 98). split; [vm_refl|]. split; [|split; [|split; unfold taken_for; vm_refl]].
    + replace (li_hash id) with 3 by (symmetry; vm_refl). reflexivity.
    + replace (li_hash id') with 3 by (symmetry; vm_refl). reflexivity.
  - split; [apply LabelProofs.wf_group_check; reflexivity|split; reflexivity].
Qed.
