(** Properties C09-C17: metric vecs.  [lawful] is established for every label
    set of the library in [P_Labels]. *)
From Coq Require Import List NArith ZArith Bool Permutation Sorted.
From Verif Require Import Base BaseFacts LabelModel LabelSpec LabelProofs GroupProofs LawProofs
  VecModel VecSpec ShardProofs VecProofs VecTheorems DenseFacts.
Import ListNotations.
Local Open Scope N_scope.

(** C09: no operation panics and every result is that of a finite map. *)
Theorem C09_vec_is_a_map : forall L M ok wt valid, lawful L ok wt valid ->
  forall W : world L M, world_ok W ->
  forall p ls v, constructed W p ls v -> ok ls ->
  forall ops, typed_ops wt ls ops ->
  exists c os a, exec W (start v) ops = Done (c, os) /\
    spec_run (w_default W) (w_geqb W) wt (storage_of v) (empty_astate ls) ops os a.
Proof. exact (fun L M ok wt valid LAW W WOK => refinement LAW W WOK). Qed.
Print Assumptions C09_vec_is_a_map.

(** The map specification leaves no freedom (collections: up to order). *)
Theorem C09_spec_deterministic : forall (L : lgset) (M : Type) (d : M) geqb wt,
  (forall a b : lg_group L, geqb a b = true <-> a = b) ->
  forall k ops a os1 os2 a1 a2, ~ In OpInitAll ops ->
  spec_run d geqb wt k a ops os1 a1 -> spec_run d geqb wt k a ops os2 a2 ->
  Forall2 same_out os1 os2 /\ (forall g, a_map a1 g = a_map a2 g).
Proof. exact @spec_deterministic. Qed.
Print Assumptions C09_spec_deterministic.

Example C09_world_ok : world_ok ex_world.
Proof. exact ex_world_ok. Qed.

Example C09_nonvacuous : exists c,
  constructed ex_world 3 ex_set ex_vec /\ sound_set ex_set /\
  @typed_ops (derived_lgset Debug) N well_shaped ex_set ex_program /\
  exec ex_world (start ex_vec) ex_program = Done (c,
    [ OutLookup (Some []); OutLookup (Some [false]); OutLookup None; OutLookup (Some [true; false]);
      OutValue 0; OutValue 0; OutValue 3; OutCardinality 2 None; OutRemoved (Some 4);
      ex_samples [(ex_group 80 120 98, 8)] ]).
Proof. exact ex_program_runs. Qed.

(** C10: storage, hash function, shard count and kind of reference are
    invisible (removal included when the storage is the same). *)
Theorem C10_storage_irrelevant : forall L M ok wt valid, lawful L ok wt valid ->
  forall (W1 W2 : world L M), world_ok W1 -> world_ok W2 -> w_default W1 = w_default W2 ->
  forall p1 p2 ls v1 v2 ops1 ops2 c1 c2 os1 os2,
    constructed W1 p1 ls v1 -> constructed W2 p2 ls v2 -> ok ls ->
    typed_ops wt ls ops1 -> Forall2 same_op ops1 ops2 ->
    Forall (fun op => plain_op op \/ (storage_of v1 = storage_of v2 /\ op <> OpInitAll)) ops1 ->
    exec W1 (start v1) ops1 = Done (c1, os1) -> exec W2 (start v2) ops2 = Done (c2, os2) ->
    Forall2 same_out os1 os2.
Proof. exact @storage_irrelevant. Qed.
Print Assumptions C10_storage_irrelevant.

Example C10_nonvacuous : exists c1 c2 l,
  constructed ex_world 3 ex_fixed_set ex_dense_vec /\ constructed ex_world 3 ex_fixed_set ex_sparse_vec /\
  storage_of ex_dense_vec = KDense /\ storage_of ex_sparse_vec = KSparse /\ Forall plain_op ex_fixed_program /\
  exec ex_world (start ex_dense_vec) ex_fixed_program = Done (c1, l) /\
  exec ex_world (start ex_sparse_vec) ex_fixed_program = Done (c2, l) /\
  nth_error l 4 = Some (OutValue 3).
Proof. exact ex_fixed_runs. Qed.

(** C11 *)
Theorem C11_storage_choice : forall L M bd p ls, 1 <= p -> p * 4 <= 2 ^ 63 ->
  (exists v, vec_new bd L M p ls = Done v /\ mv_set v = ls /\
     (storage_of v = KDense <-> exists c, lg_cardinality L ls = Some c /\ c <= 1024) /\
     (forall cells, mv_metrics v = Dense cells -> lg_cardinality L ls = Some (N.of_nat (length cells)))) /\
  (vec_new_dense L M ls = Panic <-> lg_cardinality L ls = None) /\
  (forall v, vec_new_dense L M ls = Done v -> exists cells,
     mv_metrics v = Dense cells /\ lg_cardinality L ls = Some (N.of_nat (length cells))) /\
  (exists v, vec_new_sparse bd L M p ls = Done v /\ storage_of v = KSparse).
Proof. exact @storage_choice. Qed.
Print Assumptions C11_storage_choice.

Example C11_nonvacuous : lg_cardinality (derived_lgset Debug) ex_fixed_set = Some 6 /\
  lg_cardinality (derived_lgset Debug) ex_set = None.
Proof. split; reflexivity. Qed.

(** C12 *)
Theorem C12_lookup_creates_nothing : forall L M ok wt valid, lawful L ok wt valid ->
  forall W : world L M, world_ok W ->
  forall p ls v ops c os g, constructed W p ls v -> ok ls ->
    typed_ops wt ls ops -> wt ls g -> exec W (start v) ops = Done (c, os) ->
    exists v' r, vec_try_with_labels (w_bd W) L M (w_hash W) (cl_vec c) g = Done (v', r) /\
      vec_samples L M (w_iter W) v' = vec_samples L M (w_iter W) (cl_vec c) /\
      vec_get_cardinality L M v' = vec_get_cardinality L M (cl_vec c) /\
      (r = None <-> exists s', lg_encode L (mv_set (cl_vec c)) g = Done (s', None)) /\
      (r = None <-> vec_with_labels (w_bd W) L M (w_hash W) (cl_vec c) g = Panic).
Proof. exact (fun L M ok wt valid LAW W WOK => lookup_creates_nothing LAW W WOK). Qed.
Print Assumptions C12_lookup_creates_nothing.

Theorem C12_ids_equal_iff : forall L M ok wt valid, lawful L ok wt valid ->
  forall W : world L M, world_ok W ->
  forall p ls v ops c os h1 h2 id1 id2, constructed W p ls v -> ok ls ->
    typed_ops wt ls ops -> exec W (start v) ops = Done (c, os) ->
    nth_error (cl_ids c) h1 = Some id1 -> nth_error (cl_ids c) h2 = Some id2 ->
    (label_id_eqb L id1 id2 = true <-> nth_error (issued ops os) h1 = nth_error (issued ops os) h2).
Proof. exact (fun L M ok wt valid LAW W WOK => ids_equal_iff LAW W WOK). Qed.
Print Assumptions C12_ids_equal_iff.

(** C13 *)
Theorem C13_shard_in_bounds : forall bd w p, (w = 32 \/ w = 64) -> 1 <= p -> p * 4 <= 2 ^ (w - 1) ->
  exists n, default_shard_amount bd w p = Done n /\ p * 4 <= n /\
    (forall hash, exists i, shard_index bd w hash (shard_shift w n) = Done i /\ i < n) /\
    (n <= 2 ^ (w - 7) -> forall i, i < n ->
       exists hash, hash < 2 ^ w /\ shard_index bd w hash (shard_shift w n) = Done i).
Proof. exact shard_in_bounds. Qed.
Print Assumptions C13_shard_in_bounds.

Example C13_nonvacuous : default_shard_amount Debug 64 12 = Done 64 /\
  shard_index Debug 64 18446744073709551615 (shard_shift 64 64) = Done 63 /\
  shard_index Debug 32 4294967295 (shard_shift 32 64) = Done 63.
Proof. repeat split; reflexivity. Qed.

(** A new map has the shard that any hash asks for, and it is empty. *)
Theorem C13_shards_exist : forall bd (L : lgset) M p, 1 <= p -> p * 4 <= 2 ^ 63 -> exists s : sharded L M,
  sharded_new bd L M p = Done s /\
  forall hash, exists i, shard_index bd 64 hash (sm_shift s) = Done i /\ get_shard L M s i = Done [].
Proof. exact shards_exist. Qed.
Print Assumptions C13_shards_exist.

Example C13_shards_case : match sharded_new Debug static_lgset N 1 with
  | Done s => shard_index Debug 64 (2 ^ 57 - 1) (sm_shift s) = Done 3 /\ get_shard static_lgset N s 3 = Done []
  | Panic => False
  end.
Proof. split; reflexivity. Qed.

(** C14 *)
Theorem C14_remove_sparse : forall L M ok wt valid, lawful L ok wt valid ->
  forall W : world L M, world_ok W ->
  forall p ls v ops c os h g (f : M -> M * N), constructed W p ls v -> ok ls ->
    typed_ops wt ls ops -> exec W (start v) ops = Done (c, os) -> storage_of v = KSparse ->
    nth_error (issued ops os) h = Some g ->
    exists c' l n r l' n' up,
      exec W c [OpCollect; OpCardinality; OpRemove h; OpCollect; OpCardinality; OpRemove h; OpAccess h f] =
        Done (c', [OutSamples l; OutCardinality n up; OutRemoved r; OutSamples l'; OutCardinality n' up;
                   OutRemoved None; OutValue (snd (f (w_default W)))]) /\
      (forall m, r = Some m <-> In (g, m) l) /\
      (forall g' m, In (g', m) l' <-> In (g', m) l /\ g' <> g) /\
      n = n' + match r with Some _ => 1 | None => 0 end.
Proof. exact (fun L M ok wt valid LAW W WOK => remove_sparse LAW W WOK). Qed.
Print Assumptions C14_remove_sparse.

Theorem C14_remove_dense : forall L M ok wt valid, lawful L ok wt valid ->
  forall W : world L M, world_ok W ->
  forall p ls v ops c os h, constructed W p ls v -> ok ls ->
    typed_ops wt ls ops -> exec W (start v) ops = Done (c, os) -> storage_of v = KDense ->
    (h < length (issued ops os))%nat -> exec W c [OpRemove h] = Done (c, [OutRemoved None]).
Proof. exact (fun L M ok wt valid LAW W WOK => remove_dense LAW W WOK). Qed.
Print Assumptions C14_remove_dense.

(** C15 *)
Theorem C15_cardinality_truthful : forall L M ok wt valid, lawful L ok wt valid ->
  forall W : world L M, world_ok W ->
  forall p ls v ops c os, constructed W p ls v -> ok ls ->
    typed_ops wt ls ops -> exec W (start v) ops = Done (c, os) ->
    exists l, exec W c [OpCollect; OpCardinality] =
        Done (c, [OutSamples l; OutCardinality (N.of_nat (length l)) (lg_cardinality L ls)]) /\
      NoDup (map fst l) /\
      (forall n, lg_cardinality L ls = Some n -> N.of_nat (length l) <= n).
Proof. exact (fun L M ok wt valid LAW W WOK => cardinality_truthful LAW W WOK). Qed.
Print Assumptions C15_cardinality_truthful.

(** C16 *)
Theorem C16_init_all_fills : forall L M ok wt valid, lawful L ok wt valid ->
  forall W : world L M, world_ok W ->
  forall p ls v ops c os n, constructed W p ls v -> ok ls ->
    typed_ops wt ls ops -> exec W (start v) ops = Done (c, os) -> storage_of v = KDense ->
    lg_cardinality L ls = Some n ->
    exists c' l l', exec W c [OpCollect; OpInitAll; OpCollect; OpCardinality] =
        Done (c', [OutSamples l; OutUnit; OutSamples l'; OutCardinality n (Some n)]) /\
      NoDup (map fst l') /\ N.of_nat (length l') = n /\
      (forall g m, In (g, m) l -> In (g, m) l') /\
      (forall g, known wt (mv_set (cl_vec c)) g -> ~ In g (map fst l) -> In (g, w_default W) l') /\
      (forall g m, In (g, m) l' -> In (g, m) l \/ (m = w_default W /\ known wt (mv_set (cl_vec c)) g)).
Proof. exact (fun L M ok wt valid LAW W WOK => init_all_fills LAW W WOK). Qed.
Print Assumptions C16_init_all_fills.

Theorem C16_init_all_sparse : forall L M (W : world L M) v ids, storage_of v = KSparse ->
  exec W {| cl_vec := v; cl_ids := ids |} [OpInitAll] = Done ({| cl_vec := v; cl_ids := ids |}, [OutUnit]).
Proof. exact @init_all_sparse. Qed.
Print Assumptions C16_init_all_sparse.

Example C16_nonvacuous : exists c l, constructed ex_world 3 ex_fixed_set ex_dense_vec /\
  exec ex_world (start ex_dense_vec) (ex_fixed_program ++ [OpInitAll; OpCollect]) = Done (c, l) /\
  nth_error l 8 = Some (ex_samples
    [ ([([1], [71]); ([3], [97])], 0); ([([1], [71]); ([3], [98])], 0);
      ([([1], [80]); ([3], [97])], 0); ([([1], [80]); ([3], [98])], 4);
      ([([1], [68]); ([3], [97])], 3); ([([1], [68]); ([3], [98])], 0) ]).
Proof. exact ex_fixed_init. Qed.

(** C17: exactly the live labels, each once, with the value an access reads. *)
Theorem C17_collects_live : forall L M ok wt valid, lawful L ok wt valid ->
  forall W : world L M, world_ok W ->
  forall p ls v ops c os, constructed W p ls v -> ok ls ->
    typed_ops wt ls ops -> exec W (start v) ops = Done (c, os) ->
    exists l, vec_samples L M (w_iter W) (cl_vec c) = Done l /\ NoDup (map fst l) /\
      (~ In OpInitAll ops ->
       forall g, In g (map fst l) <-> live_after (storage_of v) [] (fun _ => False) ops os g) /\
      (forall h g (read : M -> N), nth_error (issued ops os) h = Some g ->
         exists c', exec W c [OpAccess h (fun m => (m, read m))] =
           Done (c', [OutValue (read (match find (fun p => w_geqb W (fst p) g) l with
                                      | Some p => snd p | None => w_default W end))])).
Proof. exact (fun L M ok wt valid LAW W WOK => collects_live LAW W WOK). Qed.
Print Assumptions C17_collects_live.

(** C07, second half: dense collections come in increasing position order. *)
Theorem C07_dense_collection_order : forall L M ok wt valid, lawful L ok wt valid ->
  forall W : world L M, world_ok W ->
  forall p ls v ops c os, constructed W p ls v -> ok ls ->
    typed_ops wt ls ops -> exec W (start v) ops = Done (c, os) -> storage_of v = KDense ->
    exists l is, vec_samples L M (w_iter W) (cl_vec c) = Done l /\
      StronglySorted N.lt is /\
      Forall2 (fun i q => lg_decode_dense L (mv_set (cl_vec c)) i = Done (fst q)) is l.
Proof. exact (fun L M ok wt valid LAW W WOK => dense_order LAW W WOK). Qed.
Print Assumptions C07_dense_collection_order.
