(** Rows of collections of vecs under the memory model. *)
From Coq Require Import List NArith ZArith Bool Arith.
From Verif Require Import Base FloatModel MetricModel ConcModel ConcWeakModel ConcWeakSpec ConcWeakVecModel.
Import ListNotations.

(** The call [k] is a collection with a row [v] of the cell [c]. *)
Definition has_row {V Op} (k : wcall (vop Op) (vres V)) (c : nat) (v : V) : Prop :=
  exists rows, k_res k = VRows rows /\ In (c, v) rows.

Section At.
  Context {Op : Type}.
  (** The calls that change cell [c], and what a call does to a cell; [read] stands for a collection. *)
  Definition changes_at (changes : Op -> bool) (c : nat) (op : vop Op) : bool :=
    match op with VCall c' u => Nat.eqb c' c && changes u | VCollect => false end.
  Definition on_metric (read : Op) (op : vop Op) : Op := match op with VCall _ u => u | VCollect => read end.
End At.

(** ** Counters *)

Definition amount_at (c : nat) (op : vop counter_op) : N :=
  match op with VCall c' u => if Nat.eqb c' c then amount u else 0%N | VCollect => 0%N end.
(** What the calls with these numbers, or all calls, add to cell [c]. *)
Definition added_at {Res} (c : nat) (ks : list (wcall (vop counter_op) Res)) (ps : list nat) : N :=
  fold_right N.add 0%N (map (amount_at c) (ops_of_calls ks ps)).
Definition all_added_at {Res} (c : nat) (ks : list (wcall (vop counter_op) Res)) : N :=
  fold_right N.add 0%N (map (fun k => amount_at c (k_op k)) ks).

(** ** Gauges *)

Definition gauge_at (op : vop igauge_op) : Z -> Z := gauge_result (on_metric IRead op).
Definition float_at (op : vop float_op) : f64 -> f64 := float_result (on_metric FRead op).

(** ** Histograms *)

Definition observes_at (h : nat) (op : nat * hist_op) : bool := Nat.eqb (fst op) h && observing (snd op).
(** Sample of histogram [h] after the observations [ops] of it. *)
Definition sample_at (n h : nat) (E : execution N) (ops : list hist_op) (r : hist_res) : Prop :=
  exists bs i, r = Some (bs, i, sum_after (x_init E (h * (n + 2) + S n)) ops) /\
    length bs = n /\
    (forall b v, nth_error bs b = Some v -> v = (x_init E (h * (n + 2) + b) + bucket_count b ops) mod 2 ^ 64)%N /\
    i = ((x_init E (h * (n + 2) + n) + bucket_count n ops) mod 2 ^ 64)%N.
(** The rows of a collection: results of samples of their histograms. *)
Definition sampled (ks : list (wcall (nat * hist_op) hist_res)) (rows : list (nat * hist_res)) : Prop :=
  forall h r, In (h, r) rows -> exists p k, nth_error ks p = Some k /\ k_op k = (h, HSample) /\ k_res k = r.
