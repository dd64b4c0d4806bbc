(** The metrics shared by threads under the memory model of atomics.

    Where [ConcModel] interleaves atomic steps, here an execution is what the
    memory model of Rust (that of C++20, [intro.races]) allows: any graph of
    accesses that satisfies the axioms [consistent].  The accesses a call makes
    follow counter.rs:30-39, gauge.rs:59-88 and 301-360 and histogram.rs:29-38,
    50-58, 155-160.  Orderings stronger than Relaxed only add to
    happens-before, which is any relation with the axioms; so are the edges from
    locks, spawning, joining and channels.  Only the accesses to the cells of
    interest are part of the graph. *)
From Coq Require Import List NArith ZArith Bool Arith.
From Verif Require Import Base FloatModel MetricModel ConcModel.
Import ListNotations.

(* ------------------------------------------------------------------ *)
(** ** Executions *)

(** A load of [v]; a store of [v]; a read-modify-write of [v] to [w]. *)
(* no code of the crate: the memory model *)
Inductive access (V : Type) := ARead (v : V) | AWrite (v : V) | AUpdate (v w : V).
Arguments ARead {V}. Arguments AWrite {V}. Arguments AUpdate {V}.

Section Executions.
  Context {V : Type}.

  (* no code of the crate: the memory model *)
  Definition value_read (a : access V) : option V :=
    match a with ARead v | AUpdate v _ => Some v | AWrite _ => None end.
  (* no code of the crate: the memory model *)
  Definition value_written (a : access V) : option V :=
    match a with AWrite w | AUpdate _ w => Some w | ARead _ => None end.

  (** Accesses are numbered.  [x_rf] is the access whose value a load or
      read-modify-write sees, [None] for the initial value; [x_mo] is the
      modification order of each cell. (no code of the crate: the memory model) *)
  Record execution := {
    x_accesses : list (nat * access V);         (* cell and access *)
    x_init : nat -> V;
    x_rf : nat -> option nat;
    x_mo : nat -> list nat;
    x_hb : nat -> nat -> Prop }.

  (* no code of the crate: the memory model *)
  Definition access_at (E : execution) (e : nat) (cell : nat) (a : access V) : Prop :=
    nth_error (x_accesses E) e = Some (cell, a).

  (** Place in a modification order, from 1; 0 for the initial value. *)
  (* no code of the crate: the memory model *)
  Fixpoint rank_in (l : list nat) (e : nat) : nat :=
    match l with
    | [] => O
    | d :: t => if Nat.eqb d e then 1 else match rank_in t e with O => O | S n => S (S n) end
    end.
  (* no code of the crate: the memory model *)
  Definition rank (E : execution) (cell : nat) (w : option nat) : nat :=
    match w with None => O | Some e => rank_in (x_mo E cell) e end.

  (** [intro.races]: happens-before is a strict partial order; each cell has a
      modification order of its writes; a read sees a write to its cell or the
      initial value; write-write, read-write, write-read and read-read coherence;
      a read-modify-write sees the value just before its own write.
      (no code of the crate: the memory model) *)
  Record consistent (E : execution) : Prop := {
    hb_trans : forall a b c, x_hb E a b -> x_hb E b c -> x_hb E a c;
    hb_irrefl : forall a, ~ x_hb E a a;
    mo_nodup : forall cell, NoDup (x_mo E cell);
    mo_writes : forall cell e, In e (x_mo E cell) <->
      exists a w, access_at E e cell a /\ value_written a = Some w;
    rf_sees : forall e cell a v, access_at E e cell a -> value_read a = Some v ->
      match x_rf E e with
      | None => v = x_init E cell
      | Some w => exists b, access_at E w cell b /\ value_written b = Some v
      end;
    co_ww : forall cell a b, In a (x_mo E cell) -> In b (x_mo E cell) -> x_hb E a b ->
      rank E cell (Some a) < rank E cell (Some b);
    co_rw : forall cell r a v w, access_at E r cell a -> value_read a = Some v ->
      In w (x_mo E cell) -> x_hb E r w -> rank E cell (x_rf E r) < rank E cell (Some w);
    co_wr : forall cell w r a v, In w (x_mo E cell) -> access_at E r cell a -> value_read a = Some v ->
      x_hb E w r -> rank E cell (Some w) <= rank E cell (x_rf E r);
    co_rr : forall cell r s a b v w, access_at E r cell a -> value_read a = Some v ->
      access_at E s cell b -> value_read b = Some w ->
      x_hb E r s -> rank E cell (x_rf E r) <= rank E cell (x_rf E s);
    rmw_atomic : forall cell e v w, access_at E e cell (AUpdate v w) ->
      rank E cell (Some e) = S (rank E cell (x_rf E e)) }.
End Executions.
Arguments execution : clear implicits.

(* ------------------------------------------------------------------ *)
(** ** Calls *)

(** A call, its result and its accesses. *)
(* calls of counter.rs:30-39, gauge.rs:59-88 and 211-236, histogram.rs:155-160 *)
Record wcall (Op Res : Type) := { k_op : Op; k_res : Res; k_accesses : list nat }.
Arguments k_op {Op Res}. Arguments k_res {Op Res}. Arguments k_accesses {Op Res}.

Section Calls.
  Context {V Op Res : Type}.
  (** The accesses with which a call may get its result. *)
  Variable does : Op -> Res -> list (nat * access V) -> Prop.

  (** [ks] are all calls that access the cells: each makes its accesses, no two
      the same, and nothing else writes.
      (calls of counter.rs:30-39, gauge.rs:59-88 and 211-236, histogram.rs:155-160) *)
  Record calls_of (E : execution V) (ks : list (wcall Op Res)) : Prop := {
    ks_does : forall k, In k ks ->
      exists l, Forall2 (fun e ca => nth_error (x_accesses E) e = Some ca) (k_accesses k) l /\ does (k_op k) (k_res k) l;
    ks_apart : NoDup (concat (map k_accesses ks));
    ks_all : forall cell e, In e (x_mo E cell) -> In e (concat (map k_accesses ks)) }.
End Calls.

(** One counter: fetch_add (counter.rs:30-39), and the load of a collection
    (text.rs:288, prometheus-proto/src/lib.rs:255). *)
Inductive counter_does : counter_op -> N -> list (nat * access N) -> Prop :=
| KD_inc : forall v, counter_does KInc 0%N [(0, AUpdate v (counter_inc v))]
| KD_inc_by : forall x v, counter_does (KIncBy x) 0%N [(0, AUpdate v (counter_inc_by x v))]
| KD_read : forall v, counter_does KRead v [(0, ARead v)].

(** One integer gauge: fetch_add, fetch_sub, store (gauge.rs:59-88), and the
    load of a collection (text.rs:310, prometheus-proto/src/lib.rs:310). *)
Inductive igauge_does : igauge_op -> Z -> list (nat * access Z) -> Prop :=
| ID_update : forall op v, (forall x, op <> GSet x) ->
    igauge_does (IWrite op) 0%Z [(0, AUpdate v (gauge_shared op v))]
| ID_set : forall x, igauge_does (IWrite (GSet x)) 0%Z [(0, AWrite x)]
| ID_read : forall v, igauge_does IRead v [(0, ARead v)].

(** The loop of [AtomicF64::inc_by], gauge.rs:340-355: a load, then a
    compare_exchange_weak which either updates what was loaded or is a load (of
    the same value if it failed spuriously), and then it starts again. *)
Inductive loop_does (cell : nat) (delta : f64) : list (nat * access N) -> Prop :=
| LD_done : forall current,
    loop_does cell delta [(cell, ARead current); (cell, AUpdate current (to_bits (f_add (from_bits current) delta)))]
| LD_again : forall current seen rest, loop_does cell delta rest ->
    loop_does cell delta ((cell, ARead current) :: (cell, ARead seen) :: rest).

(** One float gauge: gauge.rs:301-360. *)
Inductive float_does : float_op -> N -> list (nat * access N) -> Prop :=
| FD_loop : forall op delta l, float_begin (FWrite op) = FLoop delta -> loop_does 0 delta l ->
    float_does (FWrite op) 0%N l
| FD_set : forall x, float_does (FWrite (FSet x)) 0%N [(0, AWrite (to_bits x))]
| FD_get : forall v, float_does FRead v [(0, ARead v)].

(** One histogram with [n] buckets: cells [0..n-1] are the buckets, [n] is
    [inf], [n+1] the sum.  [observe] (histogram.rs:29-38) is called with a bucket
    up to [n]; [sample] (50-58) reads all cells. *)
Inductive hist_does (n : nat) : hist_op -> hist_res -> list (nat * access N) -> Prop :=
| HD_observe : forall b x v l, b <= n -> loop_does (S n) x l ->
    hist_does n (HObserve b x) (Some ([], 0, 0)%N) ((b, AUpdate v (wrap64 (v + 1))) :: l)
| HD_sample : forall bs i s, length bs = n ->
    hist_does n HSample (Some (bs, i, s))
      (map (fun p => (fst p, ARead (snd p))) (combine (seq 0 n) bs) ++ [(n, ARead i); (S n, ARead s)]).

(* ------------------------------------------------------------------ *)
(** ** Order of calls *)

(** Everything [k] does happens before everything [k'] does. *)
(* calls of counter.rs:30-39, gauge.rs:59-88 and 211-236, histogram.rs:155-160 *)
Definition before {V Op Res} (E : execution V) (k k' : wcall Op Res) : Prop :=
  forall e f, In e (k_accesses k) -> In f (k_accesses k') -> x_hb E e f.

(** The RwLock around a histogram: [observe] runs under a read lock
    (histogram.rs:155-160), [sample] under the write lock (text.rs:236), so of an
    [observe] and a [sample] one happens before the other, and likewise of two
    samples. *)
Definition locked {V} (E : execution V) (ks : list (wcall hist_op hist_res)) : Prop :=
  forall p q k k', nth_error ks p = Some k -> nth_error ks q = Some k' -> p <> q ->
    k_op k' = HSample -> before E k k' \/ before E k' k.
