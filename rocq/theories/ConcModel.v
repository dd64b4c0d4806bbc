(** Several threads at once.

    Calls are cut into atomic steps, at every access to a shared location and at
    every lock operation; a schedule is a list of (thread, choice), the choice
    standing for what the hardware or the lock decides (a spurious failure, a
    reader that may or may not overtake a waiting writer).  Threads run
    arbitrary programs: the next call may depend on the results so far.

    A load sees the latest value of its location.  Where the memory model of Rust
    lets a load see an older one is the subject of ConcWeakModel.v; locations that
    are read together are read under a lock that orders them. *)
From Coq Require Import List NArith ZArith Bool Arith.
From Verif Require Import Base FloatModel EncoderModel MetricModel.
Import ListNotations.

(* ------------------------------------------------------------------ *)
(** ** Machines *)

(** The code of an object: how a call starts and what one step of thread [i]
    does under choice [ch]: nothing if blocked, else a new shared state and
    either the rest of the call or its result.
    (the methods of counter.rs:30-39, gauge.rs:59-88 and 211-236, histogram.rs:155-160 and those of vecs are given in this form) *)
Record machine (Sh Op Res Mic : Type) := {
  m_begin : Op -> Mic;
  m_step : nat -> nat -> Mic -> Sh -> option (Sh * (Mic + Res))
}.
Arguments m_begin {Sh Op Res Mic}.
Arguments m_step {Sh Op Res Mic}.

Section Run.
  Context {Sh Op Res Mic : Type}.
  Variable M : machine Sh Op Res Mic.

  (* no code of the crate: threads of its users *)
  Record thread := { t_cur : option (Op * Mic); t_done : list (Op * Res) }.
  (* no code of the crate: threads of its users *)
  Record config := { c_sh : Sh; c_th : nat -> thread }.

  (** The next call of thread [i] after the given calls and results. *)
  (* no code of the crate: threads of its users *)
  Definition program := nat -> list (Op * Res) -> option Op.
  (* no code of the crate: threads of its users *)
  Definition schedule := list (nat * nat).

  (* no code of the crate: threads of its users *)
  Definition upd {A} (f : nat -> A) (i : nat) (x : A) : nat -> A :=
    fun j => if Nat.eqb j i then x else f j.

  (* no code of the crate: threads of its users *)
  Definition step (prog : program) (ic : nat * nat) (c : config) : config :=
    let (i, ch) := ic in
    let t := c_th c i in
    match t_cur t with
    | None =>
      match prog i (t_done t) with
      | None => c
      | Some op => {| c_sh := c_sh c;
                      c_th := upd (c_th c) i {| t_cur := Some (op, m_begin M op); t_done := t_done t |} |}
      end
    | Some (op, mic) =>
      match m_step M i ch mic (c_sh c) with
      | None => c
      | Some (sh', inl mic') =>
        {| c_sh := sh'; c_th := upd (c_th c) i {| t_cur := Some (op, mic'); t_done := t_done t |} |}
      | Some (sh', inr r) =>
        {| c_sh := sh'; c_th := upd (c_th c) i {| t_cur := None; t_done := t_done t ++ [(op, r)] |} |}
      end
    end.

  (* no code of the crate: threads of its users *)
  Fixpoint run (prog : program) (s : schedule) (c : config) : config :=
    match s with
    | [] => c
    | ic :: rest => run prog rest (step prog ic c)
    end.

  (* no code of the crate: threads of its users *)
  Definition start_config (sh : Sh) : config :=
    {| c_sh := sh; c_th := fun _ => {| t_cur := None; t_done := [] |} |}.
End Run.
Arguments thread : clear implicits.
Arguments config : clear implicits.
Arguments program : clear implicits.

(** The program that makes the calls of a list. *)
(* no code of the crate: threads of its users *)
Definition calls {Op Res} (l : nat -> list Op) : program Op Res :=
  fun i done => nth_error (l i) (length done).

(* ------------------------------------------------------------------ *)
(** ** Objects with one atomic step per call *)

(* used for counter.rs:30-39 and gauge.rs:59-88 *)
Definition atomic_machine {St Op Res} (eff : Op -> St -> St * Res) : machine St Op Res Op :=
  {| m_begin := fun op => op;
     m_step := fun _ _ op s => let (s', r) := eff op s in Some (s', inr r) |}.

(** Counters: fetch_add (counter.rs:30-39), and the load made by a collection
    (text.rs:288, prometheus-proto/src/lib.rs:255). *)
Inductive counter_op := KInc | KIncBy (x : N) | KRead.
Definition counter_eff (op : counter_op) (c : N) : N * N :=
  match op with
  | KInc => (counter_inc c, 0%N)
  | KIncBy x => (counter_inc_by x c, 0%N)
  | KRead => (c, c)
  end.
Definition counter_machine := atomic_machine counter_eff.

(** Integer gauges: fetch_add, fetch_sub and store (gauge.rs:59-88), and the
    load made by a collection (text.rs:310, prometheus-proto/src/lib.rs:310). *)
Inductive igauge_op := IWrite (op : gauge_op) | IRead.
Definition igauge_eff (op : igauge_op) (g : Z) : Z * Z :=
  match op with
  | IWrite op => (gauge_shared op g, 0%Z)
  | IRead => (g, g)
  end.
Definition igauge_machine := atomic_machine igauge_eff.

(* ------------------------------------------------------------------ *)
(** ** Float gauges: gauge.rs:301-360 *)

Inductive float_op := FWrite (op : fgauge_op) | FRead.

(** A call is a load or a store, or a loop that loads [current] and exchanges. *)
Inductive float_mic :=
| FStore (x : f64)
| FGet
| FLoop (delta : f64)
| FExchange (delta : f64) (current : N).

Definition float_begin (op : float_op) : float_mic :=
  match op with
  | FWrite FInc => FLoop f_one
  | FWrite (FIncBy x) => FLoop x
  | FWrite FDec => FLoop (f_neg f_one)
  | FWrite (FDecBy x) => FLoop (f_neg x)
  | FWrite (FSet x) => FStore x
  | FRead => FGet
  end.

(** compare_exchange_weak fails if the cell holds something else, and may fail
    (choice not 0) although it does not. (gauge.rs:340-355) *)
Definition float_step (i ch : nat) (mic : float_mic) (cell : N) : option (N * (float_mic + N)) :=
  match mic with
  | FStore x => Some (af_set x cell, inr 0%N)
  | FGet => Some (cell, inr (af_get cell))
  | FLoop delta => Some (cell, inl (FExchange delta cell))
  | FExchange delta current =>
    if (cell =? current)%N && Nat.eqb ch 0
    then Some (to_bits (f_add (from_bits current) delta), inr 0%N)
    else Some (cell, inl (FLoop delta))
  end.

(* gauge.rs:319-360 *)
Definition float_machine : machine N float_op N float_mic :=
  {| m_begin := float_begin; m_step := float_step |}.

(* ------------------------------------------------------------------ *)
(** ** Locks *)

(** parking_lot's RwLock.  The holders are listed (with repetition) where the
    implementation only counts them; [rw_wait] are the threads waiting to write.
    (parking_lot, used in sparse.rs:21 and histogram.rs:66) *)
Record rwlock := { rw_readers : list nat; rw_writer : option nat; rw_wait : list nat }.
(* parking_lot, used in sparse.rs:21 and histogram.rs:66 *)
Definition rw_free : rwlock := {| rw_readers := []; rw_writer := None; rw_wait := [] |}.

(* parking_lot, used in sparse.rs:21 and histogram.rs:66 *)
Fixpoint remove_one (i : nat) (l : list nat) : list nat :=
  match l with
  | [] => []
  | j :: t => if Nat.eqb i j then t else j :: remove_one i t
  end.

(** A reader waits for the writer, and (choice 0) for waiting writers too. *)
(* parking_lot, used in sparse.rs:21 and histogram.rs:66 *)
Definition rw_read (i ch : nat) (l : rwlock) : option rwlock :=
  match rw_writer l with
  | Some _ => None
  | None =>
    match rw_wait l, ch with
    | _ :: _, O => None
    | _, _ => Some {| rw_readers := i :: rw_readers l; rw_writer := None; rw_wait := rw_wait l |}
    end
  end.
(* parking_lot, used in sparse.rs:21 and histogram.rs:66 *)
Definition rw_unread (i : nat) (l : rwlock) : rwlock :=
  {| rw_readers := remove_one i (rw_readers l); rw_writer := rw_writer l; rw_wait := rw_wait l |}.
(* parking_lot, used in sparse.rs:21 and histogram.rs:66 *)
Definition rw_request (i : nat) (l : rwlock) : rwlock :=
  {| rw_readers := rw_readers l; rw_writer := rw_writer l; rw_wait := i :: rw_wait l |}.
(* parking_lot, used in sparse.rs:21 and histogram.rs:66 *)
Definition rw_write (i : nat) (l : rwlock) : option rwlock :=
  match rw_readers l, rw_writer l with
  | [], None => Some {| rw_readers := []; rw_writer := Some i; rw_wait := remove_one i (rw_wait l) |}
  | _, _ => None
  end.
(* parking_lot, used in sparse.rs:21 and histogram.rs:66 *)
Definition rw_unwrite (l : rwlock) : rwlock :=
  {| rw_readers := rw_readers l; rw_writer := None; rw_wait := rw_wait l |}.
(** [RwLockWriteGuard::downgrade]: no other writer gets in between. *)
(* parking_lot, used in sparse.rs:21 and histogram.rs:66 *)
Definition rw_downgrade (i : nat) (l : rwlock) : rwlock :=
  {| rw_readers := i :: rw_readers l; rw_writer := None; rw_wait := rw_wait l |}.

(* ------------------------------------------------------------------ *)
(** ** Histograms: histogram.rs:29-59, 155-160, text.rs:236 *)

(** [HistogramState]: the lock and the state behind it. *)
Record chist := { ch_lock : rwlock; ch_state : hist }.

(** [HObserve bucket x]: the rest of [HistogramLockGuard::observe] after the
    bucket was found, which looks at nothing shared.  [HSample]: the
    [inner.write().sample()] of a collection. *)
Inductive hist_op := HObserve (bucket : nat) (x : f64) | HSample.

(** [None] is a panic, else the sample (for an observation nothing). *)
Definition hist_res := option (list N * N * N).

(* histogram.rs:29-59 and 157-160, text.rs:236 *)
Inductive hist_mic :=
| HRead (bucket : nat) (x : f64)                    (* inner.read() *)
| HAdd (bucket : nat) (x : f64)                     (* assert; fetch_add on the bucket or on inf *)
| HLoad (x : f64)                                   (* AtomicF64::inc_by: load *)
| HExchange (x : f64) (current : N)                 (* compare_exchange_weak *)
| HUnread (r : hist_res)                            (* the read guard is dropped *)
| HRequest                                          (* inner.write(), enqueue *)
| HWrite                                            (* inner.write(), acquire *)
| HBuckets (i : nat) (acc : list N)                 (* output[i] = buckets[i] *)
| HInf (bs : list N)
| HSum (bs : list N) (inf : N)
| HUnwrite (r : hist_res).                          (* the write guard is dropped *)

(* histogram.rs:29-59 and 157-160, text.rs:236 *)
Definition hist_begin (op : hist_op) : hist_mic :=
  match op with HObserve b x => HRead b x | HSample => HRequest end.

(* histogram.rs:29-59 and 157-160, text.rs:236 *)
Definition set_state (c : chist) (h : hist) : chist := {| ch_lock := ch_lock c; ch_state := h |}.
(* histogram.rs:29-59 and 157-160, text.rs:236 *)
Definition set_lock (c : chist) (l : rwlock) : chist := {| ch_lock := l; ch_state := ch_state c |}.

(* histogram.rs:29-59 and 157-160, text.rs:236 *)
Definition hist_step (i ch : nat) (mic : hist_mic) (c : chist) : option (chist * (hist_mic + hist_res)) :=
  let h := ch_state c in
  match mic with
  | HRead b x =>
    match rw_read i ch (ch_lock c) with
    | None => None
    | Some l => Some (set_lock c l, inl (HAdd b x))
    end
  | HAdd b x =>
    if Nat.leb b (length (h_buckets h)) then
      if Nat.ltb b (length (h_buckets h)) then
        Some (set_state c {| h_buckets := update_nth b (fun n => wrap64 (n + 1)) (h_buckets h);
                             h_inf := h_inf h; h_sum := h_sum h |}, inl (HLoad x))
      else
        Some (set_state c {| h_buckets := h_buckets h; h_inf := wrap64 (h_inf h + 1); h_sum := h_sum h |},
              inl (HLoad x))
    else Some (c, inl (HUnread None))
  | HLoad x => Some (c, inl (HExchange x (h_sum h)))
  | HExchange x current =>
    if (h_sum h =? current)%N && Nat.eqb ch 0 then
      Some (set_state c {| h_buckets := h_buckets h; h_inf := h_inf h;
                           h_sum := to_bits (f_add (from_bits current) x) |}, inl (HUnread (Some ([], 0%N, 0%N))))
    else Some (c, inl (HLoad x))
  | HUnread r => Some (set_lock c (rw_unread i (ch_lock c)), inr r)
  | HRequest => Some (set_lock c (rw_request i (ch_lock c)), inl HWrite)
  | HWrite =>
    match rw_write i (ch_lock c) with
    | None => None
    | Some l => Some (set_lock c l, inl (HBuckets 0 []))
    end
  | HBuckets k acc =>
    match nth_error (h_buckets h) k with
    | Some n => Some (c, inl (HBuckets (S k) (acc ++ [n])))
    | None => Some (c, inl (HInf acc))
    end
  | HInf bs => Some (c, inl (HSum bs (h_inf h)))
  | HSum bs inf => Some (c, inl (HUnwrite (Some (bs, inf, af_get_ex (h_sum h)))))
  | HUnwrite r => Some (set_lock c (rw_unwrite (ch_lock c)), inr r)
  end.

(* histogram.rs:29-59 and 157-160, text.rs:236 *)
Definition hist_machine : machine chist hist_op hist_res hist_mic :=
  {| m_begin := hist_begin; m_step := hist_step |}.
