(** Vecs of counters and gauges under the memory model of atomics: many cells, calls
    on single metrics of the vec and collections that read the cells one by one.
    Which metrics there are is up to the execution: the accesses of a metric are to its
    cell whenever the metric was made, and the locks and OnceLocks of metric.rs only add
    to happens-before, which is any relation with the axioms of [consistent]. *)
From Coq Require Import List NArith ZArith Bool Arith.
From Verif Require Import Base FloatModel MetricModel ConcModel ConcWeakModel.
Import ListNotations.

(** A call on the metric in cell [c] (counter.rs:55-75, gauge.rs:117-142,
    268-293: [get_metric] and then the call), or a collection
    (metric.rs:446-471). *)
Inductive vop (Op : Type) := VCall (c : nat) (op : Op) | VCollect.
Arguments VCall {Op}. Arguments VCollect {Op}.

(** The result of a call; the rows of a collection, each with its cell
    (metric.rs:451-469). *)
Inductive vres (V : Type) := VOne (r : V) | VRows (rows : list (nat * V)).
Arguments VOne {V}. Arguments VRows {V}.

(** A call accesses the cell of its metric like the metric alone.  A collection loads
    each of its rows from its cell, one after another, without a lock on all of them
    (metric.rs:451-469 with text.rs:288 and 310 for the load). *)
Inductive vec_does {V Op : Type} (does : Op -> V -> list (nat * access V) -> Prop) : vop Op -> vres V -> list (nat * access V) -> Prop :=
| VD_call : forall c op r l, does op r l -> vec_does does (VCall c op) (VOne r) (map (fun ca => (c, snd ca)) l)
| VD_collect : forall rows, vec_does does VCollect (VRows rows) (map (fun row => (fst row, ARead (snd row))) rows).

(** A vec of histograms with [n] buckets: histogram [h] has the cells from [h * (n + 2)]
    on.  A call on it observes (histogram.rs:212-226); a collection takes a sample of each
    histogram under its own write lock (metric.rs:451-469 with text.rs:236), and is here
    given by these samples, one call each. *)
Definition hist_vec_does (n : nat) (op : nat * hist_op) (r : hist_res) (l : list (nat * access N)) : Prop :=
  exists l', hist_does n (snd op) r l' /\ l = map (fun ca => (fst op * (n + 2) + fst ca, snd ca)) l'.

(** The RwLock around each histogram: of an observation and a sample of it one happens
    before the other, and likewise of two samples (histogram.rs:155-160, text.rs:236).
    Nothing is said of different histograms. *)
Definition vec_locked {V} (E : execution V) (ks : list (wcall (nat * hist_op) hist_res)) : Prop :=
  forall p q k k', nth_error ks p = Some k -> nth_error ks q = Some k' -> p <> q ->
    fst (k_op k) = fst (k_op k') -> snd (k_op k') = HSample -> before E k k' \/ before E k' k.
