(** Vocabulary for whole calls made by threads. *)
From Coq Require Import List NArith ZArith Bool Arith.
From Verif Require Import Base FloatModel MetricModel LabelModel LabelSpec ConcModel ConcSpec ConcVecModel ConcVecSpec ConcLabelModel ConcLabelSpec
  ConcCallModel.
Import ListNotations.

Definition group_eq_dec : forall a b : group_val, {a = b} + {a <> b}.
Proof. repeat decide equality. Defined.

Section Spec.
  Context {Op Res V : Type}.
  Notation tr_t := (trace (label_op + vec_op unique Op) (label_res + vec_res unique Res V)).

  Definition call_group (call : vec_call Op) : option group_val :=
    match call with CUpdate g _ => Some g | CDelete g => Some g | CCollect | CCount => None end.

  (** Programs that use groups of the right type. *)
  Definition calls_shaped (fields : group_set) (P : nat -> list (vec_call Op * tr_t) -> option (vec_call Op)) : Prop :=
    forall i h call g, P i h = Some call -> call_group call = Some g -> well_shaped fields g.

  (** The groups and the values of a collection, in its order. *)
  Definition groups_of (tr : tr_t) : list group_val :=
    flat_map (fun d => match d with (inl (LDecode _), inl (LGroup g)) => [g] | _ => [] end) tr.
  Definition values_of (tr : tr_t) : list Res :=
    flat_map (fun d => match d with (inr (SUse _ _ _), inr (RVal r)) => [r] | _ => [] end) tr.

  (** The metrics seen in the shards, one number per shard: sparse.rs:112-115.
      Their sum does not wrap: the metrics are in memory. *)
  Definition lengths_of (tr : tr_t) : list nat :=
    flat_map (fun d => match d with (inr (SOpen _ _), inr (RKeys ks)) => [length ks] | _ => [] end) tr.

  (** What the caller gets. *)
  Inductive call_result :=
  | Returned (r : Res)
  | Removed (v : option V)
  | Collected (l : list (group_val * Res))
  | Counted (n : nat)
  | Refused        (* the panic of with_labels *)
  | Failed.        (* any other panic *)

  Definition result_of (call : vec_call Op) (tr : tr_t) : call_result :=
    match call with
    | CUpdate g u =>
      match tr with
      | [(_, inl (LId None))] => Refused
      | [(_, inl (LId (Some _))); (_, inr RUnit); (_, inr (RVal r)); (_, inr RUnit)] => Returned r
      | _ => Failed
      end
    | CDelete g =>
      match tr with
      | [(_, inl (LId None))] => Refused
      | [(_, inl (LId (Some _))); (_, inr (RRemoved v))] => Removed v
      | _ => Failed
      end
    | CCollect =>
      match last tr (inr (SDrop 0), inr RUnit) with
      | (inr (SDrop _), inr RUnit) => Collected (combine (groups_of tr) (values_of tr))
      | _ => Failed
      end
    | CCount =>
      match last tr (inr (SDrop 0), inr RUnit) with
      | (inr (SDrop _), inr RUnit) => Counted (list_sum (lengths_of tr))
      | _ => Failed
      end
    end.

  (** What a call adds to an amount kept under [g]. *)
  Definition call_adds (add : Op -> Res -> Z) (amount : V -> Z) (g : group_val) (d : vec_call Op * tr_t) : Z :=
    match fst d, result_of (fst d) (snd d) with
    | CUpdate g' u, Returned r => if group_eq_dec g' g then add u r else 0
    | CDelete g', Removed (Some v) => if group_eq_dec g' g then - amount v else 0
    | _, _ => 0
    end%Z.
End Spec.

Section Machine.
  Context {Sh Op Res Mic V : Type}.
  Variable bd : build.
  Variable fields : group_set.
  Variable loc : bytes -> nat.
  Variable accepts : nat -> list bytes -> bytes -> bool.
  Variable shard_of : unique -> nat.
  Variable O : machine Sh Op Res Mic.
  Variable sh_new : Sh.
  Variable view : Sh -> V.
  Variable shards : nat.
  Variable read : Op.

  (** A sparse vec over a derived label set, its threads making calls. *)
  Definition shared_vec := both (label_machine bd fields loc accepts) (sparse_machine unique_eqb shard_of O sh_new view).
  Definition calling (P : nat -> list (vec_call Op * trace (label_op + vec_op unique Op) (label_res + vec_res unique Res V)) ->
      option (vec_call Op)) := follow call_init (call_next shards read) call_adv P.

  Variable P : nat -> list (vec_call Op * trace (label_op + vec_op unique Op) (label_res + vec_res unique Res V)) ->
      option (vec_call Op).
  Variable m0 : interners.

  Definition at_time (s : schedule) := run shared_vec (calling P) s (start_config (m0, sv_new)).

  (** The calls thread [i] has made, the one it is in, both. *)
  Definition made (s : schedule) (i : nat) :=
    h_done (history_of call_init (call_next shards read) call_adv (P i) (t_done (c_th (at_time s) i))).
  (** [None]: between two calls. *)
  Definition underway (s : schedule) (i : nat) : option (vec_call Op) :=
    match h_cur (history_of call_init (call_next shards read) call_adv (P i) (t_done (c_th (at_time s) i))) with
    | Some (call, _, _) => Some call
    | None => match t_cur (c_th (at_time s) i) with Some _ => P i (made s i) | None => None end
    end.
  Definition has_begun (s : schedule) (i : nat) (call : vec_call Op) : Prop :=
    In call (map fst (made s i)) \/ underway s i = Some call.

  (** The label set as it is then, the metric of an id. *)
  Definition labels_now (s : schedule) : group_set := current fields loc accepts (fst (c_sh (at_time s))).
  Definition metric_now (s : schedule) (k : unique) : option Sh := vec_lookup unique_eqb shard_of k (snd (c_sh (at_time s))).

  (** Amounts added by the calls of the threads below [n]. *)
  Definition all_adds (add : Op -> Res -> Z) (amount : V -> Z) (g : group_val) (n : nat) (s : schedule) : Z :=
    sum_over (fun i => sum_over (call_adds add amount g) (made s i)) (seq 0 n).

  (** The same with the updates that are under way. *)
  Definition underway_adds (most : Op -> Z) (g : group_val) (s : schedule) (i : nat) : Z :=
    match underway s i with
    | Some (CUpdate g' u) => if group_eq_dec g' g then most u else 0
    | _ => 0
    end%Z.
  Definition begun_adds (add : Op -> Res -> Z) (amount : V -> Z) (most : Op -> Z) (g : group_val) (n : nat) (s : schedule) : Z :=
    sum_over (fun i => sum_over (call_adds add amount g) (made s i) + underway_adds most g s i)%Z (seq 0 n).
End Machine.

(** ** The same with the parameters put together *)

(** A label set, the interners' first strings, and the shards of a vec. *)
Record setup := {
  su_build : build;
  su_fields : group_set;
  su_loc : bytes -> nat;
  su_accepts : nat -> list bytes -> bytes -> bool;
  su_strings : interners;
  su_shard_of : unique -> nat;
  su_shards : nat
}.
Definition setup_ok (w : setup) : Prop := sound_set (su_fields w) /\ forall l, NoDup (su_strings w l).

(** The code of a metric, a new one, what is seen of it, how it is read. *)
Record metric_code (Sh Op Res Mic V : Type) := {
  mc_machine : machine Sh Op Res Mic;
  mc_new : Sh;
  mc_view : Sh -> V;
  mc_read : Op
}.
Arguments mc_machine {Sh Op Res Mic V}.
Arguments mc_new {Sh Op Res Mic V}.
Arguments mc_view {Sh Op Res Mic V}.
Arguments mc_read {Sh Op Res Mic V}.

Definition counter_code : metric_code N counter_op N counter_op N :=
  {| mc_machine := counter_machine; mc_new := 0%N; mc_view := fun v => v; mc_read := KRead |}.
Definition hist_code (buckets : nat) :=
  {| mc_machine := hist_machine; mc_new := {| ch_lock := rw_free; ch_state := hist_new buckets |};
     mc_view := fun c => hist_view (ch_state c); mc_read := HSample |}.

(** An observation counts at most once. *)
Definition hist_most (u : hist_op) : Z := match u with HObserve _ _ => 1 | HSample => 0 end%Z.

Section Together.
  Context {Sh Op Res Mic V : Type}.
  Variable w : setup.
  Variable m : metric_code Sh Op Res Mic V.
  Variable P : nat -> list (vec_call Op * trace (label_op + vec_op unique Op) (label_res + vec_res unique Res V)) ->
      option (vec_call Op).

  (** The calls thread [i] has finished after schedule [s]. *)
  Definition finished_calls (s : schedule) (i : nat) :=
    made (su_build w) (su_fields w) (su_loc w) (su_accepts w) (su_shard_of w) (mc_machine m) (mc_new m) (mc_view m)
      (su_shards w) (mc_read m) P (su_strings w) s i.
  (** The call it is in. *)
  Definition call_underway (s : schedule) (i : nat) :=
    underway (su_build w) (su_fields w) (su_loc w) (su_accepts w) (su_shard_of w) (mc_machine m) (mc_new m) (mc_view m)
      (su_shards w) (mc_read m) P (su_strings w) s i.
  Definition call_begun (s : schedule) (i : nat) (call : vec_call Op) : Prop :=
    In call (map fst (finished_calls s i)) \/ call_underway s i = Some call.
  Definition nobody_busy (s : schedule) : Prop := forall i, call_underway s i = None.

  Definition label_set_at (s : schedule) : group_set :=
    labels_now (su_build w) (su_fields w) (su_loc w) (su_accepts w) (su_shard_of w) (mc_machine m) (mc_new m) (mc_view m)
      (su_shards w) (mc_read m) P (su_strings w) s.
  (** The id of a group, if it has one. *)
  Definition has_id (s : schedule) (g : group_val) (k : unique) : Prop :=
    well_shaped (su_fields w) g /\ group_encode (su_build w) (label_set_at s) g = Done (label_set_at s, Some k).
  Definition metric_at (s : schedule) (k : unique) : option Sh :=
    metric_now (su_build w) (su_fields w) (su_loc w) (su_accepts w) (su_shard_of w) (mc_machine m) (mc_new m) (mc_view m)
      (su_shards w) (mc_read m) P (su_strings w) s k.

  (** Added to [g] by the finished calls of threads below [n], and with those under way. *)
  Definition sum_finished (add : Op -> Res -> Z) (amount : V -> Z) (g : group_val) (n : nat) (s : schedule) : Z :=
    sum_over (fun i => sum_over (call_adds add amount g) (finished_calls s i)) (seq 0 n).
  Definition sum_begun (add : Op -> Res -> Z) (amount : V -> Z) (most : Op -> Z) (g : group_val) (n : nat) (s : schedule) : Z :=
    sum_over (fun i => sum_over (call_adds add amount g) (finished_calls s i) +
      match call_underway s i with
      | Some (CUpdate g' u) => if group_eq_dec g' g then most u else 0
      | _ => 0
      end)%Z (seq 0 n).
End Together.

