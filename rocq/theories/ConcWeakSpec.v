(** What the calls on one cell amount to when accesses are not interleaved but
    only coherent. *)
From Coq Require Import List NArith ZArith Bool Arith.
From Verif Require Import Base FloatModel MetricModel ConcModel ConcWeakModel.
Import ListNotations.

Section Ordered.
  Context {V Op Res : Type}.
  Variable E : execution V.
  Variable ks : list (wcall Op Res).
  (** The calls that change the cell, and what they make of its value. *)
  Variable changes : Op -> bool.
  Variable effect : Op -> V -> V.

  (** The operations of the calls with these numbers. *)
  Definition ops_of_calls (ps : list nat) : list Op :=
    flat_map (fun p => match nth_error ks p with Some k => [k_op k] | None => [] end) ps.
  Definition outcome_of (init : V) (ps : list nat) : V :=
    fold_left (fun v op => effect op v) (ops_of_calls ps) init.

  (** [order] has every changing call once, and follows happens-before. *)
  Definition order_of_changes (order : list nat) : Prop :=
    NoDup order /\
    (forall p, In p order <-> exists k, nth_error ks p = Some k /\ changes (k_op k) = true) /\
    (forall p q k k', nth_error ks p = Some k -> nth_error ks q = Some k' -> In p order -> In q order ->
       before E k k' -> exists a b c, order = a ++ p :: b ++ q :: c).

  (** A result is what the first calls of the order, [seen], make of the initial
      value; they include every call before this one, and none after it. *)
  Definition explained (order : list nat) (init : V) (k : wcall Op Res) (r : V) (seen : list nat) : Prop :=
    exists unseen, order = seen ++ unseen /\ r = outcome_of init seen /\
      forall q k', nth_error ks q = Some k' -> In q order ->
        (before E k' k -> In q seen) /\ (before E k k' -> In q unseen).
End Ordered.

(** ** Counters *)

Definition increments (op : counter_op) : bool := match op with KRead => false | _ => true end.
Definition amount (op : counter_op) : N := match op with KInc => 1 | KIncBy x => x | KRead => 0 end.
Definition counted (op : counter_op) (v : N) : N := ((v + amount op) mod 2 ^ 64)%N.
(** What the calls with these numbers add. *)
Definition added {Res} (ks : list (wcall counter_op Res)) (ps : list nat) : N :=
  fold_right N.add 0%N (map amount (ops_of_calls ks ps)).
Definition all_added {Res} (ks : list (wcall counter_op Res)) : N :=
  fold_right N.add 0%N (map (fun k => amount (k_op k)) ks).

(** ** Gauges *)

Definition igauge_writes (op : igauge_op) : bool := match op with IWrite _ => true | IRead => false end.
Definition wrapped (z : Z) : Z := ((z + 2 ^ 63) mod 2 ^ 64 - 2 ^ 63)%Z.
Definition gauge_result (op : igauge_op) (z : Z) : Z :=
  match op with
  | IWrite GInc => wrapped (z + 1)
  | IWrite (GIncBy x) => wrapped (z + x)
  | IWrite GDec => wrapped (z - 1)
  | IWrite (GDecBy x) => wrapped (z - x)
  | IWrite (GSet x) => x
  | IRead => z
  end.

Definition float_writes (op : float_op) : bool := match op with FWrite _ => true | FRead => false end.
Definition float_result (op : float_op) (x : f64) : f64 :=
  match op with
  | FWrite FInc => f_add x (f_of_Z 1)
  | FWrite (FIncBy y) => f_add x y
  | FWrite FDec => f_sub x (f_of_Z 1)
  | FWrite (FDecBy y) => f_sub x y
  | FWrite (FSet y) => y
  | FRead => x
  end.

(** ** Histograms *)

Definition observing (op : hist_op) : bool := match op with HObserve _ _ => true | HSample => false end.
(** The number of observations in bucket [b], and the sum, each rounded. *)
Definition in_bucket (b : nat) (op : hist_op) : bool :=
  match op with HObserve b' _ => Nat.eqb b b' | HSample => false end.
Definition bucket_count (b : nat) (ops : list hist_op) : N := N.of_nat (length (filter (in_bucket b) ops)).
Definition sum_after (s : f64) (ops : list hist_op) : f64 :=
  fold_left (fun s op => match op with HObserve _ x => f_add s x | HSample => s end) ops s.

(** Sample of an execution with [n] buckets after the observations [ops]. *)
Definition sample_of (n : nat) (E : execution N) (ops : list hist_op) (r : hist_res) : Prop :=
  exists bs i, r = Some (bs, i, sum_after (x_init E (S n)) ops) /\
    length bs = n /\
    (forall b v, nth_error bs b = Some v -> v = (x_init E b + bucket_count b ops) mod 2 ^ 64)%N /\
    i = ((x_init E n + bucket_count n ops) mod 2 ^ 64)%N.
