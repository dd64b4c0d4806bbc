(** Metric vecs shared by threads: core/src/metric/sparse.rs:48-116,
    core/src/metric.rs:240-270 and 448-471.

    Generic in the metric [O] (a machine) and in the keys.  A reference handed
    out by a vec is modelled by the identity of the entry it points to, not by
    its key: an entry made anew for the same key is another entry, and a
    reference to an entry that is gone is an error ([RDangling]).

    A guard (the result of [get_metric], or the [shard.read()] of a collection)
    is known by the thread and a number of its choice, the handle.  Collecting a
    shard is the program that opens it, samples every key it got and drops the
    guard, cardinality the one that opens it, counts and drops the guard. *)
From Coq Require Import List NArith ZArith Bool Arith.
From Verif Require Import Base ConcModel.
Import ListNotations.

Section Sparse.
  Context {K Sh Op Res Mic V : Type}.
  Variable keqb : K -> K -> bool.
  (** The shard of a key: sparse.rs:50, 84 (in bounds by C13). *)
  Variable shard_of : K -> nat.
  Variable O : machine Sh Op Res Mic.
  (** [M::default()], and what the caller of [remove_metric] sees of the state. *)
  Variable sh_new : Sh.
  Variable view : Sh -> V.

  (** One row of a [HashTable<(K, V)>]. *)
  Record row := { e_key : K; e_id : nat; e_sh : Sh }.
  (** [RwLock<HashTable<..>>].  Rows are in insertion order; the hash of a row
      and the order of iteration are left to VecModel.v. *)
  Record shard := { s_lock : rwlock; s_tab : list row }.
  (* sparse.rs:33, a guard held by a caller *)
  Record guard := { g_tid : nat; g_h : nat; g_shard : nat; g_refs : list (K * nat) }.
  (** [v_next] gives fresh identities, [v_guards] are the callers' variables. *)
  (* sparse.rs:12-23 *)
  Record svec := { v_shards : nat -> shard; v_next : nat; v_guards : list guard }.

  (* sparse.rs:36-45 *)
  Definition sv_new : svec :=
    {| v_shards := fun _ => {| s_lock := rw_free; s_tab := [] |}; v_next := 0; v_guards := [] |}.

  (* sparse.rs:12-23 *)
  Definition set_shard_lock (s : nat) (l : rwlock) (c : svec) : svec :=
    {| v_shards := upd (v_shards c) s {| s_lock := l; s_tab := s_tab (v_shards c s) |};
       v_next := v_next c; v_guards := v_guards c |}.
  (* sparse.rs:12-23 *)
  Definition set_shard_tab (s : nat) (t : list row) (c : svec) : svec :=
    {| v_shards := upd (v_shards c) s {| s_lock := s_lock (v_shards c s); s_tab := t |};
       v_next := v_next c; v_guards := v_guards c |}.
  (* sparse.rs:12-23 *)
  Definition lock_of (s : nat) (c : svec) : rwlock := s_lock (v_shards c s).
  (* sparse.rs:12-23 *)
  Definition tab_of (s : nat) (c : svec) : list row := s_tab (v_shards c s).
  (* sparse.rs:12-23 *)
  Definition set_guards (gs : list guard) (c : svec) : svec :=
    {| v_shards := v_shards c; v_next := v_next c; v_guards := gs |}.
  (* sparse.rs:12-23 *)
  Definition next_id (c : svec) : svec :=
    {| v_shards := v_shards c; v_next := S (v_next c); v_guards := v_guards c |}.

  (* hashbrown, used in sparse.rs:54-75 and 85-90 *)
  Definition find_key (k : K) (t : list row) : option row := find (fun e => keqb (e_key e) k) t.
  (* hashbrown, used in sparse.rs:54-75 and 85-90 *)
  Definition find_id (n : nat) (t : list row) : option row := find (fun e => Nat.eqb (e_id e) n) t.
  (* hashbrown, used in sparse.rs:54-75 and 85-90 *)
  Definition remove_key (k : K) (t : list row) : list row := filter (fun e => negb (keqb (e_key e) k)) t.
  (* hashbrown, used in sparse.rs:54-75 and 85-90 *)
  Definition set_sh (n : nat) (sh : Sh) (t : list row) : list row :=
    map (fun e => if Nat.eqb (e_id e) n then {| e_key := e_key e; e_id := e_id e; e_sh := sh |} else e) t.

  (* sparse.rs:33, a guard held by a caller *)
  Definition is_guard (i h : nat) (g : guard) : bool := Nat.eqb (g_tid g) i && Nat.eqb (g_h g) h.
  (* sparse.rs:33, a guard held by a caller *)
  Definition find_guard (i h : nat) (c : svec) : option guard := find (is_guard i h) (v_guards c).
  (* sparse.rs:33, a guard held by a caller *)
  Definition drop_guard (i h : nat) (gs : list guard) : list guard := filter (fun g => negb (is_guard i h g)) gs.
  (* sparse.rs:33, a guard held by a caller *)
  Definition ref_of (k : K) (g : guard) : option nat :=
    match find (fun p => keqb (fst p) k) (g_refs g) with Some (_, n) => Some n | None => None end.

  (* sparse.rs:48-92 and 111-116, metric.rs:461-467 *)
  Inductive vec_op :=
  | SGet (h : nat) (k : K)              (* get_metric, sparse.rs:49-81 *)
  | SUse (h : nat) (k : K) (u : Op)     (* a call on the metric through the reference *)
  | SDrop (h : nat)                     (* the guard is dropped *)
  | SRemove (k : K)                     (* remove_metric, sparse.rs:83-92 *)
  | SOpen (h : nat) (s : nat).          (* shard.read().iter(), metric.rs:463-464, sparse.rs:114 *)

  Inductive vec_res :=
  | RUnit
  | RKeys (ks : list K)
  | RVal (r : Res)
  | RRemoved (v : option V)
  | RBad          (* the program uses a handle twice or without having it: rejected by Rust's types *)
  | RPanic        (* expect fails, sparse.rs:75 *)
  | RDangling.    (* access to an entry that is gone: undefined behaviour *)

  Inductive vec_mic :=
  | MGet (h : nat) (k : K)                            (* shard.read() *)
  | MLook (h : nat) (k : K)                           (* find under the read lock *)
  | MUnread (h : nat) (k : K)                         (* try_map failed, its guard is dropped *)
  | MReq (h : nat) (k : K)                            (* shard.write(), enqueue *)
  | MWrite (h : nat) (k : K)                          (* shard.write(), acquire *)
  | MIns (h : nat) (k : K)                            (* find_entry, insert_unique *)
  | MDown (h : nat) (k : K)                           (* downgrade *)
  | MFind (h : nat) (k : K)                           (* map: find, expect; the guard has had the row since [MIns], nobody could write in between *)
  | MUse (h : nat) (k : K) (u : Op)                   (* take the reference *)
  | MIn (s n : nat) (mic : Mic)                       (* inside the metric *)
  | MDrop (h : nat)
  | MRReq (k : K)                                     (* shard.write(), enqueue *)
  | MRWrite (k : K)                                   (* shard.write(), acquire *)
  | MRDo (k : K)                                      (* find_entry, remove *)
  | MRUnwrite (s : nat) (r : vec_res)                 (* the write guard is dropped *)
  | MOpen (h s : nat)                                 (* shard.read() *)
  | MKeys (h s : nat).                                (* iter() *)

  (* sparse.rs:48-92 and 111-116, metric.rs:461-467 *)
  Definition vec_begin (op : vec_op) : vec_mic :=
    match op with
    | SGet h k => MGet h k
    | SUse h k u => MUse h k u
    | SDrop h => MDrop h
    | SRemove k => MRReq k
    | SOpen h s => MOpen h s
    end.

  (* sparse.rs:33, a guard held by a caller *)
  Definition add_guard (i h s : nat) (refs : list (K * nat)) (c : svec) : svec :=
    set_guards ({| g_tid := i; g_h := h; g_shard := s; g_refs := refs |} :: v_guards c) c.
  (* sparse.rs:33, a guard held by a caller *)
  Definition held (i h : nat) (c : svec) : bool :=
    match find_guard i h c with Some _ => true | None => false end.

  (* sparse.rs:48-92 and 111-116, metric.rs:461-467 *)
  Definition vec_step (i ch : nat) (mic : vec_mic) (c : svec) : option (svec * (vec_mic + vec_res)) :=
    match mic with
    | MGet h k =>
      if held i h c then Some (c, inr RBad)
      else match rw_read i ch (lock_of (shard_of k) c) with
           | None => None
           | Some l => Some (set_shard_lock (shard_of k) l c, inl (MLook h k))
           end
    | MLook h k =>
      match find_key k (tab_of (shard_of k) c) with
      | Some e => Some (add_guard i h (shard_of k) [(k, e_id e)] c, inr RUnit)
      | None => Some (c, inl (MUnread h k))
      end
    | MUnread h k =>
      Some (set_shard_lock (shard_of k) (rw_unread i (lock_of (shard_of k) c)) c, inl (MReq h k))
    | MReq h k =>
      Some (set_shard_lock (shard_of k) (rw_request i (lock_of (shard_of k) c)) c, inl (MWrite h k))
    | MWrite h k =>
      match rw_write i (lock_of (shard_of k) c) with
      | None => None
      | Some l => Some (set_shard_lock (shard_of k) l c, inl (MIns h k))
      end
    | MIns h k =>
      match find_key k (tab_of (shard_of k) c) with
      | Some e => Some (add_guard i h (shard_of k) [(k, e_id e)] c, inl (MDown h k))
      | None =>
        let n := v_next c in
        Some (add_guard i h (shard_of k) [(k, n)]
               (next_id (set_shard_tab (shard_of k)
                 (tab_of (shard_of k) c ++ [{| e_key := k; e_id := n; e_sh := sh_new |}]) c)), inl (MDown h k))
      end
    | MDown h k =>
      Some (set_shard_lock (shard_of k) (rw_downgrade i (lock_of (shard_of k) c)) c, inl (MFind h k))
    | MFind h k =>
      match find_key k (tab_of (shard_of k) c) with
      | Some _ => Some (c, inr RUnit)
      | None => Some (c, inr RPanic)
      end
    | MUse h k u =>
      match find_guard i h c with
      | None => Some (c, inr RBad)
      | Some g =>
        match ref_of k g with
        | None => Some (c, inr RBad)
        | Some n => Some (c, inl (MIn (g_shard g) n (m_begin O u)))
        end
      end
    | MIn s n m =>
      match find_id n (tab_of s c) with
      | None => Some (c, inr RDangling)
      | Some e =>
        match m_step O i ch m (e_sh e) with
        | None => None
        | Some (sh', inl m') => Some (set_shard_tab s (set_sh n sh' (tab_of s c)) c, inl (MIn s n m'))
        | Some (sh', inr r) => Some (set_shard_tab s (set_sh n sh' (tab_of s c)) c, inr (RVal r))
        end
      end
    | MDrop h =>
      match find_guard i h c with
      | None => Some (c, inr RBad)
      | Some g =>
        Some (set_shard_lock (g_shard g) (rw_unread i (lock_of (g_shard g) c))
               (set_guards (drop_guard i h (v_guards c)) c), inr RUnit)
      end
    | MRReq k =>
      Some (set_shard_lock (shard_of k) (rw_request i (lock_of (shard_of k) c)) c, inl (MRWrite k))
    | MRWrite k =>
      match rw_write i (lock_of (shard_of k) c) with
      | None => None
      | Some l => Some (set_shard_lock (shard_of k) l c, inl (MRDo k))
      end
    | MRDo k =>
      match find_key k (tab_of (shard_of k) c) with
      | Some e => Some (set_shard_tab (shard_of k) (remove_key k (tab_of (shard_of k) c)) c,
                        inl (MRUnwrite (shard_of k) (RRemoved (Some (view (e_sh e))))))
      | None => Some (c, inl (MRUnwrite (shard_of k) (RRemoved None)))
      end
    | MRUnwrite s r => Some (set_shard_lock s (rw_unwrite (lock_of s c)) c, inr r)
    | MOpen h s =>
      if held i h c then Some (c, inr RBad)
      else match rw_read i ch (lock_of s c) with
           | None => None
           | Some l => Some (set_shard_lock s l c, inl (MKeys h s))
           end
    | MKeys h s =>
      Some (add_guard i h s (map (fun e => (e_key e, e_id e)) (tab_of s c)) c,
            inr (RKeys (map e_key (tab_of s c))))
    end.

  (* sparse.rs:48-92 and 111-116, metric.rs:461-467 *)
  Definition sparse_machine : machine svec vec_op vec_res vec_mic :=
    {| m_begin := vec_begin; m_step := vec_step |}.
End Sparse.
Arguments row : clear implicits.
Arguments shard : clear implicits.
Arguments guard : clear implicits.
Arguments svec : clear implicits.
Arguments vec_op : clear implicits.
Arguments vec_res : clear implicits.
Arguments vec_mic : clear implicits.
