(** Metric vecs: core/src/metric.rs and core/src/metric/sparse.rs, one
    operation at a time (for interleavings see the concurrency files). *)
From Coq Require Import List NArith Bool.
From Verif Require Import Base LabelModel.
Import ListNotations.
Local Open Scope N_scope.

(* ------------------------------------------------------------------ *)
(** ** Shard selection (sparse.rs:26-46, 50), for a target whose usize has [w] bits *)

(** [a * b] on a [w]-bit usize. *)
Definition w_mul (bd : build) (w a b : N) : outcome N :=
  match bd with
  | Debug => if a * b <? 2 ^ w then Done (a * b) else Panic
  | Release => Done ((a * b) mod 2 ^ w)
  end.

(** [usize::next_power_of_two]: overflow panics in debug builds, gives 0 in
    release builds. *)
Definition next_power_of_two (bd : build) (w x : N) : outcome N :=
  let p := 2 ^ N.log2_up x in
  if p <? 2 ^ w then Done p
  else match bd with Debug => Panic | Release => Done 0 end.

(** [usize::trailing_zeros] *)
(* std, used in sparse.rs:26-45 *)
Fixpoint pos_trailing_zeros (p : positive) : N :=
  match p with xO q => N.succ (pos_trailing_zeros q) | _ => 0 end.
(* std, used in sparse.rs:26-45 *)
Definition trailing_zeros (w x : N) : N :=
  match x with 0 => w | Npos p => pos_trailing_zeros p end.

(** sparse.rs:26-31 [default_shard_amount]; [p] is
    [available_parallelism().map_or(1, usize::from)]. *)
Definition default_shard_amount (bd : build) (w p : N) : outcome N :=
  let! x := w_mul bd w p 4 in
  next_power_of_two bd w x.

(** sparse.rs:43: [(size_of::<usize>() * 8) as u32 - shards.trailing_zeros()] *)
Definition shard_shift (w shards : N) : N := w - trailing_zeros w shards.

(** [x >> s] on a [w]-bit usize: a shift by [w] or more panics in debug builds
    and uses the shift amount modulo [w] in release builds. *)
Definition w_shr (bd : build) (w x s : N) : outcome N :=
  if s <? w then Done (N.shiftr x s)
  else match bd with Debug => Panic | Release => Done (N.shiftr x (s mod w)) end.

(** sparse.rs:50, 84, 95: [((id.hash as usize) << 7) >> self.shift] *)
Definition shard_index (bd : build) (w hash shift : N) : outcome N :=
  w_shr bd w (N.shiftl (hash mod 2 ^ w) 7 mod 2 ^ w) shift.

(* ------------------------------------------------------------------ *)
(** ** Storage *)

Section Vec.
  Variable bd : build.
  (** The label set (its operations) and the metric type with its [Default]. *)
  Variable L : lgset.
  Variable M : Type.
  Variable mdefault : M.

  Let U := lg_unique L.
  Let G := lg_group L.

  (** [BuildHasher::hash_one] for ids (rustc-hash): any function. *)
  Variable hash_one : U -> N.

  (** [hashbrown::HashTable<(K, V)>] (external): a collection of entries, each
      stored under the hash given at insertion.  [visits h h'] says whether a
      search for hash [h] looks at entries stored under [h'] (it must for [h =
      h'], it may otherwise); [grows] says whether an insertion rehashes, which
      recomputes the stored hashes with the closure passed to [insert_unique];
      [iter_order] is the iteration order. (hashbrown, used in sparse.rs:12-23) *)
  Definition entry := (N * (U * M))%type.
  (* hashbrown, used in sparse.rs:12-23 *)
  Definition table := list entry.
  Variable visits : N -> N -> bool.
  Variable grows : table -> bool.
  Variable iter_order : table -> table.

  (* hashbrown, used in sparse.rs:12-23 *)
  Definition entry_hash (e : entry) : N := fst e.
  (* hashbrown, used in sparse.rs:12-23 *)
  Definition entry_key (e : entry) : U := fst (snd e).
  (* hashbrown, used in sparse.rs:12-23 *)
  Definition entry_val (e : entry) : M := snd (snd e).

  (* hashbrown, used in sparse.rs:49-108 *)
  Definition hit (h : N) (u : U) (e : entry) : bool :=
    visits h (entry_hash e) && lg_unique_eqb L (entry_key e) u.

  (** [HashTable::find(hash, |(k, _)| *k == id)] *)
  (* hashbrown, used in sparse.rs:49-108 *)
  Definition ht_find (h : N) (u : U) (t : table) : option M :=
    option_map entry_val (find (hit h u) t).

  (** Write through the reference returned by [find]. *)
  (* hashbrown, used in sparse.rs:49-108 *)
  Fixpoint ht_store (h : N) (u : U) (m : M) (t : table) : table :=
    match t with
    | [] => []
    | e :: t' => if hit h u e then (fst e, (fst (snd e), m)) :: t' else e :: ht_store h u m t'
    end.

  (** [OccupiedEntry::remove] after [find_entry] *)
  (* hashbrown, used in sparse.rs:49-108 *)
  Fixpoint ht_remove (h : N) (u : U) (t : table) : table :=
    match t with
    | [] => []
    | e :: t' => if hit h u e then t' else e :: ht_remove h u t'
    end.

  (** [HashTable::insert_unique(hash, (k, v), |(k, _)| hasher.hash_one(k))] *)
  (* hashbrown, used in sparse.rs:49-108 *)
  Definition ht_insert_unique (h : N) (u : U) (m : M) (t : table) : table :=
    (if grows t then map (fun e => (hash_one (entry_key e), snd e)) t else t) ++ [(h, (u, m))].

  (** sparse.rs:12-23 [ShardedMap]; the locks are not visible sequentially. *)
  Record sharded := { sm_shards : list table; sm_shift : N }.

  (** sparse.rs:36-45 [ShardedMap::new], 64-bit target, [p] threads. *)
  Definition sharded_new (p : N) : outcome sharded :=
    let! shards := default_shard_amount bd 64 p in
    Done {| sm_shards := repeat [] (N.to_nat shards); sm_shift := shard_shift 64 shards |}.

  (** [&self.shards[i]]: out of bounds panics. *)
  Definition get_shard (s : sharded) (i : N) : outcome table :=
    match nnth (sm_shards s) i with Some t => Done t | None => Panic end.

  Fixpoint list_set {A} (l : list A) (i : nat) (x : A) : list A :=
    match l, i with
    | [], _ => []
    | _ :: t, O => x :: t
    | y :: t, S i' => y :: list_set t i' x
    end.

  (* sparse.rs:12-23 *)
  Definition set_shard (s : sharded) (i : N) (t : table) : sharded :=
    {| sm_shards := list_set (sm_shards s) (N.to_nat i) t; sm_shift := sm_shift s |}.

  (** metric.rs:475-479 [LabelIdInner] *)
  Record label_id := { li_id : U; li_hash : N }.

  (** sparse.rs:49-81 [get_metric], then [f] applied to the metric through the
      returned guard (any sequence of operations on it while the guard lives);
      [f] also returns what the caller read. *)
  Definition sparse_get_metric {R} (s : sharded) (id : label_id) (f : M -> M * R)
    : outcome (sharded * R) :=
    let! i := shard_index bd 64 (li_hash id) (sm_shift s) in
    let! t := get_shard s i in
    match ht_find (li_hash id) (li_id id) t with
    | Some m =>
      let (m', r) := f m in
      Done (set_shard s i (ht_store (li_hash id) (li_id id) m' t), r)
    | None =>
      (* write lock; the entry is searched again *)
      let t' := match ht_find (li_hash id) (li_id id) t with
                | Some _ => t
                | None => ht_insert_unique (li_hash id) (li_id id) mdefault t
                end in
      (* downgraded; [expect] *)
      match ht_find (li_hash id) (li_id id) t' with
      | None => Panic
      | Some m =>
        let (m', r) := f m in
        Done (set_shard s i (ht_store (li_hash id) (li_id id) m' t'), r)
      end
    end.

  (** sparse.rs:94-109 [get_metric_mut], then [f] through the [&mut M]. *)
  Definition sparse_get_metric_mut {R} (s : sharded) (id : label_id) (f : M -> M * R)
    : outcome (sharded * R) :=
    let! i := shard_index bd 64 (li_hash id) (sm_shift s) in
    let! t := get_shard s i in
    match ht_find (li_hash id) (li_id id) t with
    | Some m =>
      let (m', r) := f m in
      Done (set_shard s i (ht_store (li_hash id) (li_id id) m' t), r)
    | None =>
      let (m', r) := f mdefault in
      Done (set_shard s i (ht_insert_unique (li_hash id) (li_id id) m' t), r)
    end.

  (** sparse.rs:83-92 [remove_metric] *)
  Definition sparse_remove_metric (s : sharded) (id : label_id) : outcome (sharded * option M) :=
    let! i := shard_index bd 64 (li_hash id) (sm_shift s) in
    let! t := get_shard s i in
    match ht_find (li_hash id) (li_id id) t with
    | Some m => Done (set_shard s i (ht_remove (li_hash id) (li_id id) t), Some m)
    | None => Done (s, None)
    end.

  (** sparse.rs:111-116 [get_cardinality] *)
  Definition sparse_get_cardinality (s : sharded) : N :=
    fold_left (fun acc t => acc + nlen t) (sm_shards s) 0.

  (** metric.rs:124-127 [VecInner]; a dense cell is a [OnceLock]. *)
  Inductive vec_inner :=
  | Dense (cells : list (option M))
  | Sparse (s : sharded).

  (** metric.rs:118-122 [MetricVec]; metadata never changes and is left out. *)
  Record metric_vec := { mv_metrics : vec_inner; mv_set : lg_state L }.

  (** metric.rs:166 *)
  Definition DEFAULT_MAX_DENSE : N := 1024.

  (** metric.rs:159-163 [new_dense] *)
  Definition new_dense (c : N) : list (option M) := repeat None (N.to_nat c).

  (** metric.rs:271-282 [with_label_set_and_metadata] (and [new], [with_label_set],
      [with_metadata], which call it) *)
  Definition vec_new (p : N) (ls : lg_state L) : outcome metric_vec :=
    match lg_cardinality L ls with
    | Some c =>
      if c <=? DEFAULT_MAX_DENSE
      then Done {| mv_metrics := Dense (new_dense c); mv_set := ls |}
      else let! s := sharded_new p in Done {| mv_metrics := Sparse s; mv_set := ls |}
    | None => let! s := sharded_new p in Done {| mv_metrics := Sparse s; mv_set := ls |}
    end.

  (** metric.rs:285-295: [expect] on an unknown cardinality *)
  Definition vec_new_dense (ls : lg_state L) : outcome metric_vec :=
    match lg_cardinality L ls with
    | Some c => Done {| mv_metrics := Dense (new_dense c); mv_set := ls |}
    | None => Panic
    end.

  (** metric.rs:298-304 *)
  Definition vec_new_sparse (p : N) (ls : lg_state L) : outcome metric_vec :=
    let! s := sharded_new p in Done {| mv_metrics := Sparse s; mv_set := ls |}.

  (** metric.rs:313-321 [init_all_dense] *)
  Definition vec_init_all_dense (v : metric_vec) : metric_vec :=
    match mv_metrics v with
    | Dense cells =>
      {| mv_metrics := Dense (map (fun c => match c with None => Some mdefault | Some m => Some m end) cells);
         mv_set := mv_set v |}
    | Sparse _ => v
    end.

  (** metric.rs:341-354 [try_with_labels]; the set is returned because it may
      have interned strings. *)
  Definition vec_try_with_labels (v : metric_vec) (g : G) : outcome (metric_vec * option label_id) :=
    let! p := lg_encode L (mv_set v) g in
    let (ls, r) := (p : lg_state L * option U) in
    let v' := {| mv_metrics := mv_metrics v; mv_set := ls |} in
    match r with
    | None => Done (v', None)
    | Some id =>
      match mv_metrics v with
      | Dense cells =>
        let! e := lg_encode_dense L ls id in
        match e with
        | None => Panic
        | Some index =>
          let! _ := debug_assert bd (index <? nlen cells) in
          Done (v', Some {| li_id := id; li_hash := index |})
        end
      | Sparse _ => Done (v', Some {| li_id := id; li_hash := hash_one id |})
      end
    end.

  (** metric.rs:332-335 [with_labels]: panics if refused *)
  Definition vec_with_labels (v : metric_vec) (g : G) : outcome (metric_vec * label_id) :=
    let! p := vec_try_with_labels v g in
    let (v', r) := (p : metric_vec * option label_id) in
    match r with Some id => Done (v', id) | None => Panic end.

  (** metric.rs:244-252, 360-362 [get_metric], then [f] through the guard; for a
      dense vec [get_or_init] on the cell [id.hash as usize]. *)
  Definition vec_get_metric {R} (v : metric_vec) (id : label_id) (f : M -> M * R)
    : outcome (metric_vec * R) :=
    match mv_metrics v with
    | Dense cells =>
      match nnth cells (li_hash id) with
      | None => Panic
      | Some c =>
        let (m', r) := f (match c with Some m => m | None => mdefault end) in
        Done ({| mv_metrics := Dense (list_set cells (N.to_nat (li_hash id)) (Some m'));
                 mv_set := mv_set v |}, r)
      end
    | Sparse s =>
      let! p := sparse_get_metric s id f in
      let (s', r) := (p : sharded * R) in
      Done ({| mv_metrics := Sparse s'; mv_set := mv_set v |}, r)
    end.

  (** metric.rs:254-266, 384-386 [get_metric_mut], then [f] through the [&mut M] *)
  Definition vec_get_metric_mut {R} (v : metric_vec) (id : label_id) (f : M -> M * R)
    : outcome (metric_vec * R) :=
    match mv_metrics v with
    | Dense cells =>
      match nnth cells (li_hash id) with
      | None => Panic
      | Some c =>
        (* if m.get_mut().is_none() { *m = default }; m.get_mut().unwrap() *)
        let m := match c with None => mdefault | Some m => m end in
        let (m', r) := f m in
        Done ({| mv_metrics := Dense (list_set cells (N.to_nat (li_hash id)) (Some m'));
                 mv_set := mv_set v |}, r)
      end
    | Sparse s =>
      let! p := sparse_get_metric_mut s id f in
      let (s', r) := (p : sharded * R) in
      Done ({| mv_metrics := Sparse s'; mv_set := mv_set v |}, r)
    end.

  (** metric.rs:373-378 [remove_metric] *)
  Definition vec_remove_metric (v : metric_vec) (id : label_id) : outcome (metric_vec * option M) :=
    match mv_metrics v with
    | Dense _ => Done (v, None)
    | Sparse s =>
      let! p := sparse_remove_metric s id in
      let (s', r) := (p : sharded * option M) in
      Done ({| mv_metrics := Sparse s'; mv_set := mv_set v |}, r)
    end.

  (** metric.rs:389-397 [get_cardinality] *)
  Definition vec_get_cardinality (v : metric_vec) : N * option N :=
    match mv_metrics v with
    | Dense cells => (nlen (filter (fun c => match c with Some _ => true | None => false end) cells),
                      Some (nlen cells))
    | Sparse s => (sparse_get_cardinality s, lg_cardinality L (mv_set v))
    end.

  (** metric.rs:448-468: the label groups and metrics handed to
      [collect_into], in order (dense: by index; sparse: shard by shard in
      table order).  Decoding and writing are interleaved in the code; they are
      separated here, which makes no difference as long as decoding does not
      panic. *)
  Fixpoint dense_samples (ls : lg_state L) (index : N) (cells : list (option M))
    : outcome (list (G * M)) :=
    match cells with
    | [] => Done []
    | None :: rest => dense_samples ls (N.succ index) rest
    | Some m :: rest =>
      let! g := lg_decode_dense L ls index in
      let! r := dense_samples ls (N.succ index) rest in
      Done ((g, m) :: r)
    end.

  (* metric.rs:461-467 *)
  Fixpoint table_samples (ls : lg_state L) (t : table) : outcome (list (G * M)) :=
    match t with
    | [] => Done []
    | e :: rest =>
      let! g := lg_decode L ls (entry_key e) in
      let! r := table_samples ls rest in
      Done ((g, entry_val e) :: r)
    end.

  (* metric.rs:461-467 *)
  Fixpoint shards_samples (ls : lg_state L) (ts : list table) : outcome (list (G * M)) :=
    match ts with
    | [] => Done []
    | t :: rest =>
      let! a := table_samples ls (iter_order t) in
      let! b := shards_samples ls rest in
      Done (a ++ b)
    end.

  (* metric.rs:446-471 *)
  Definition vec_samples (v : metric_vec) : outcome (list (G * M)) :=
    match mv_metrics v with
    | Dense cells => dense_samples (mv_set v) 0 cells
    | Sparse s => shards_samples (mv_set v) (sm_shards s)
    end.

  (** metric.rs:487-498: ids are compared by [id] only *)
  Definition label_id_eqb (a b : label_id) : bool := lg_unique_eqb L (li_id a) (li_id b).

  (* ---------------------------------------------------------------- *)
  (** ** Client programs *)

  (** What a client can do.  Ids are the ones issued by this vec so far,
      numbered in order; [f] is whatever the client does with the metric. *)
  Inductive vec_op :=
  | OpLookup (g : G)
  | OpAccess (handle : nat) (f : M -> M * N)
  | OpAccessMut (handle : nat) (f : M -> M * N)
  | OpRemove (handle : nat)
  | OpInitAll
  | OpCardinality
  | OpCollect.

  (** What the client observes.  A lookup shows whether the group was accepted
      and which of the earlier ids the new one equals. (metric.rs:313-397 and 446-471, a client) *)
  Inductive vec_out :=
  | OutLookup (r : option (list bool))
  | OutValue (r : N)
  | OutRemoved (r : option M)
  | OutUnit
  | OutCardinality (lower : N) (upper : option N)
  | OutSamples (l : list (G * M))
  | OutNoHandle.

  (* metric.rs:313-397 and 446-471, a client *)
  Record client := { cl_vec : metric_vec; cl_ids : list label_id }.

  (* metric.rs:313-397 and 446-471, a client *)
  Definition with_vec (c : client) (v : metric_vec) : client :=
    {| cl_vec := v; cl_ids := cl_ids c |}.

  (* metric.rs:313-397 and 446-471, a client *)
  Definition vec_step (c : client) (op : vec_op) : outcome (client * vec_out) :=
    match op with
    | OpLookup g =>
      let! p := vec_try_with_labels (cl_vec c) g in
      let (v, r) := (p : metric_vec * option label_id) in
      match r with
      | None => Done (with_vec c v, OutLookup None)
      | Some id => Done ({| cl_vec := v; cl_ids := cl_ids c ++ [id] |},
                         OutLookup (Some (map (label_id_eqb id) (cl_ids c))))
      end
    | OpAccess h f =>
      match nth_error (cl_ids c) h with
      | None => Done (c, OutNoHandle)
      | Some id =>
        let! p := vec_get_metric (cl_vec c) id f in
        let (v, r) := (p : metric_vec * N) in
        Done (with_vec c v, OutValue r)
      end
    | OpAccessMut h f =>
      match nth_error (cl_ids c) h with
      | None => Done (c, OutNoHandle)
      | Some id =>
        let! p := vec_get_metric_mut (cl_vec c) id f in
        let (v, r) := (p : metric_vec * N) in
        Done (with_vec c v, OutValue r)
      end
    | OpRemove h =>
      match nth_error (cl_ids c) h with
      | None => Done (c, OutNoHandle)
      | Some id =>
        let! p := vec_remove_metric (cl_vec c) id in
        let (v, r) := (p : metric_vec * option M) in
        Done (with_vec c v, OutRemoved r)
      end
    | OpInitAll => Done (with_vec c (vec_init_all_dense (cl_vec c)), OutUnit)
    | OpCardinality =>
      let (lo, up) := vec_get_cardinality (cl_vec c) in Done (c, OutCardinality lo up)
    | OpCollect =>
      let! l := vec_samples (cl_vec c) in Done (c, OutSamples l)
    end.

  (* metric.rs:313-397 and 446-471, a client *)
  Fixpoint vec_run (c : client) (ops : list vec_op) : outcome (client * list vec_out) :=
    match ops with
    | [] => Done (c, [])
    | op :: rest =>
      let! p := vec_step c op in
      let (c', o) := (p : client * vec_out) in
      let! q := vec_run c' rest in
      let (c'', os) := (q : client * list vec_out) in
      Done (c'', o :: os)
    end.
End Vec.

Arguments li_id {L}.
Arguments li_hash {L}.
Arguments sm_shards {L M}.
Arguments sm_shift {L M}.
Arguments Dense {L M}.
Arguments Sparse {L M}.
Arguments mv_metrics {L M}.
Arguments mv_set {L M}.
Arguments cl_vec {L M}.
Arguments cl_ids {L M}.
Arguments OpLookup {L M}.
Arguments OpAccess {L M}.
Arguments OpAccessMut {L M}.
Arguments OpRemove {L M}.
Arguments OpInitAll {L M}.
Arguments OpCardinality {L M}.
Arguments OpCollect {L M}.
Arguments OutLookup {L M}.
Arguments OutValue {L M}.
Arguments OutRemoved {L M}.
Arguments OutUnit {L M}.
Arguments OutCardinality {L M}.
Arguments OutSamples {L M}.
Arguments OutNoHandle {L M}.
Arguments entry_hash {L M}.
Arguments entry_key {L M}.
Arguments entry_val {L M}.
